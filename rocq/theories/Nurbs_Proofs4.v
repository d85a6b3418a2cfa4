(** Rational splines: wrong knot insertion, failing division. *)
From Coq Require Import Reals Lra Lia List Arith Bool ZArith.
From Verif Require Import Blossom Spline_Model Spline_Spec Spline_Proofs Spline_Proofs2 Spline_Proofs3 Splop_Model Splop_Spec Span_Proofs Span_Proofs2 Splop_Proofs
  Splop_Proofs2 Splop_Proofs3 Splop_Proofs4 Obst_Model Trip_Proofs Bern_Proofs2 Nurbs_Model Nurbs_Spec Nurbs_Proofs Nurbs_Proofs2 Nurbs_Proofs3.
Import ListNotations.
Local Open Scope R_scope.

Lemma tent_grid : forall i, grid_pt tent i = INR i / 500.
Proof.
  intros. unfold grid_pt, no_points, tent. cbn [knots hd last]. replace (INR (501 - 1)) with 500; [field|]. rewrite INR_IZR_INZ. simpl. reflexivity.
Qed.
Lemma tent_max0 : maxpos tent 0 = 0%nat.
Proof.
  unfold maxpos. apply argmax_spec; [unfold no_points; lia|intros i H; lia|].
  intros i H. pose proof (grid_frac i ltac:(lia)) as G. pose proof (pos_INR i) as P. rewrite !tent_grid. change (INR 0) with 0.
  rewrite (tent_left (0 / 500)) by lra. destruct (Rle_dec (INR i / 500) (1/2)); [rewrite tent_left by lra|rewrite tent_right by lra]; cbn; lra.
Qed.
Lemma tent_max1 : maxpos tent 1 = 250%nat.
Proof.
  unfold maxpos. apply argmax_spec; [unfold no_points; lia| |]; intros i H; rewrite !tent_grid, INR_250.
  - apply lt_INR in H. rewrite INR_250 in H. pose proof (pos_INR i). rewrite !tent_left by lra. cbn. lra.
  - pose proof (grid_frac i ltac:(lia)) as G. rewrite (tent_left (250 / 500)) by lra.
    destruct (Rle_dec (INR i / 500) (1/2)); [rewrite tent_left by lra|rewrite tent_right by lra]; cbn; lra.
Qed.
Lemma tent_max2 : maxpos tent 2 = 500%nat.
Proof.
  unfold maxpos. apply argmax_spec; [unfold no_points; lia| |]; intros i H; rewrite !tent_grid, INR_500.
  - apply lt_INR in H. rewrite INR_500 in H. pose proof (pos_INR i). rewrite (tent_right (500 / 500)) by lra.
    destruct (Rle_dec (INR i / 500) (1/2)); [rewrite tent_left by lra|rewrite tent_right by lra]; cbn; lra.
  - unfold no_points in H. lia.
Qed.
Lemma tent_colloc : colloc tent = [[1; 0; 0]; [0; 1; 0]; [0; 0; 1]].
Proof.
  unfold colloc. change (blen tent) with 3%nat. cbn [seq map]. rewrite tent_max0, tent_max1, tent_max2, !tent_grid, INR_250, INR_500. change (INR 0) with 0.
  rewrite !tent_left by lra. rewrite tent_right by lra. repeat (apply f_equal2; [repeat (apply f_equal2; [lra|]); reflexivity|]). reflexivity.
Qed.
Lemma tent_regular : only_zero (blen tent) (colloc tent).
Proof.
  change (blen tent) with 3%nat. intros y L H. destruct y as [|y0 [|y1 [|y2 [|y3 y]]]]; try discriminate. rewrite tent_colloc in H.
  pose proof (H _ (or_introl eq_refl)) as H0. pose proof (H _ (or_intror (or_introl eq_refl))) as H1.
  pose proof (H _ (or_intror (or_intror (or_introl eq_refl)))) as H2. cbn [dot] in H0, H1, H2. cbn [repeat].
  repeat (apply f_equal2; [lra|]). reflexivity.
Qed.
Lemma tent_insert : insert_knots_basis lbasis [1/2] = tent.
Proof.
  assert (K : knots (insert_knots_basis lbasis [1/2]) = knots tent).
  { apply sorted_count_eq. { unfold insert_knots_basis. cbn [knots]. apply py_sorted_nondecreasing. } { apply tent_sorted. }
    intros t. rewrite insert_knots_cnt, tent_cnt. unfold cnt, lbasis. cbn [knots count_occ].
    repeat destruct (Req_EM_T _ _); try lra; cbn [Nat.eqb]; auto; destruct (in_dec _ _ _) as [I|I]; cbn in I; intuition lra. }
  unfold insert_knots_basis in *. cbn [knots] in K. rewrite K. reflexivity.
Qed.
Lemma lbasis_eval : forall x, 0 <= x <= 1 -> eval_basis lbasis x = [1 - x; x].
Proof.
  intros x X. apply (nth_ext _ _ 0 0); [rewrite blen_eval; reflexivity|]. intros i I. rewrite blen_eval in I. cbn in I.
  rewrite <- (call_unit lbasis i x) by (cbn; lia).
  destruct i as [|[|i]]; try lia; cbn [blen lbasis length knots degree Nat.sub unitv map seq Nat.eqb nth];
    change (mkB [0; 0; 1; 1] 1) with lbasis; rewrite line_call by exact X; ring.
Qed.
(** a line with weights 1 and 2 *)
Definition skew : nurbs := mkN lbasis [1; 2] [0; 1].
Theorem ninsert_refuted : forall tol, 0 <= tol <= 1/2 ->
  nsized skew /\ clamped_on (nbasis skew) 0 1 /\ (forall w, In w (weights skew) -> 0 < w) /\
  exists n', ninsert tol skew [1/2] = Some n' /\ ncall skew (1/2) = 2/3 /\ ncall n' (1/2) = 1/2.
Proof.
  intros tol HT. split; [split; reflexivity|]. split; [apply lbasis_clamped|]. split. { intros w [<-|[<-|[]]]; lra. }
  unfold ninsert. cbn [skew nbasis]. rewrite tent_insert.
  destruct (transform_total tol tent (fun i => eval_basis lbasis (grid_pt tent i)) (blen lbasis) tent_regular) as [T ET].
  unfold transform_basis. rewrite ET. eexists. split; [reflexivity|].
  assert (J : forall x, 0 <= x <= 1 -> nth 0 (eval_basis lbasis x) 0 = dot (eval_basis tent x) [1; 1/2; 0] /\ nth 1 (eval_basis lbasis x) 0 = dot (eval_basis tent x) [0; 1/2; 1]).
  { intros x X. rewrite lbasis_eval by exact X. destruct (Rle_dec x (1/2)); [rewrite tent_left by lra|rewrite tent_right by lra]; cbn; split; lra. }
  assert (G : forall j, 0 <= grid_pt tent (maxpos tent j) <= 1) by (intros j; apply (grid_range tent 0 1); [apply tent_clamped|apply maxpos_lt]).
  assert (Z1 : zap tol 1 = 1) by (apply zap_keep; right; rewrite Rabs_R1; lra).
  assert (Z2 : zap tol (1/2) = 1/2) by (apply zap_keep; right; rewrite Rabs_right; lra).
  assert (Z0 : zap tol 0 = 0) by (apply zap_keep; auto).
  assert (E0 := transform_column tol tent _ (blen lbasis) T 0 [1; 1/2; 0] ltac:(cbn; lia) ET eq_refl ltac:(intros j _; cbv beta; symmetry; apply J; apply G)).
  assert (E1 := transform_column tol tent _ (blen lbasis) T 1 [0; 1/2; 1] ltac:(cbn; lia) ET eq_refl ltac:(intros j _; cbv beta; symmetry; apply J; apply G)).
  assert (LT : length T = 2%nat). { apply oall_spec in ET. apply (f_equal (@length _)) in ET. rewrite !map_length, seq_length in ET. exact (eq_sym ET). }
  destruct T as [|c0 [|c1 [|c2 T]]]; try discriminate. cbn [nth] in E0, E1. subst c0 c1.
  unfold ncall, nurbs_row, times2, skew. cbn [nbasis weights ncoeffs]. rewrite lbasis_eval by lra. rewrite tent_left by lra.
  unfold cols_dot. change (blen tent) with 3%nat. cbn [seq map nth dot combine fst snd]. rewrite Z0, Z1, Z2. split; field.
Qed.
(** 1 / (1 - 2x + 2x^2): the denominator is positive, one of its coefficients is zero *)
Lemma obasis_add : basis_add obasis obasis = obasis.
Proof. exact (add_bern 2 2). Qed.
Theorem div_refuted : let s1 := mkS obasis [1; 1; 1] in let s2 := mkS obasis [1; 0; 1] in
  clamped_on obasis 0 1 /\ sized s1 /\ sized s2 /\ (forall x, 0 <= x <= 1 -> 1/2 <= call s2 x) /\ forall tol, div_spline tol s1 s2 = None.
Proof.
  cbv zeta. split; [apply obasis_clamped|]. split; [reflexivity|]. split; [reflexivity|]. split.
  { intros x X. unfold call. cbn [sbasis coeffs]. rewrite obasis_eval by exact X. cbn [dot]. pose proof (Rle_0_sqr (x - 1/2)) as Q. unfold Rsqr in Q. lra. }
  intros tol. set (s2 := mkS obasis [1; 0; 1]).
  destruct (transform_total tol obasis (fun i => eval_basis obasis (grid_pt obasis i)) (blen obasis) obasis_regular) as [T ET].
  apply (div_zero_weight tol _ _ T). { cbn [sbasis s2]. rewrite obasis_add. exact ET. }
  cbn [sbasis s2]. rewrite obasis_add.
  assert (COL : forall c, (c < 3)%nat -> nth c T [] = map (zap tol) (unitv 3 c)).
  { intros c C. apply (transform_column tol obasis _ _ T c (unitv 3 c) C ET); [apply unitv_length|]. intros j _. cbv beta.
    change 3%nat with (blen obasis). rewrite <- (blen_eval obasis (grid_pt obasis (maxpos obasis j))). apply dot_unitv. rewrite blen_eval. exact C. }
  assert (LT : length T = 3%nat). { apply oall_spec in ET. apply (f_equal (@length _)) in ET. rewrite !map_length, seq_length in ET. exact (eq_sym ET). }
  assert (E0 := COL 0%nat ltac:(lia)). assert (E1 := COL 1%nat ltac:(lia)). assert (E2 := COL 2%nat ltac:(lia)).
  destruct T as [|c0 [|c1 [|c2 [|c3 T]]]]; try discriminate. cbn [nth] in E0, E1, E2. subst c0 c1 c2.
  unfold cols_dot. change (blen obasis) with 3%nat. cbn. right. left. assert (Z0 : zap tol 0 = 0) by (apply zap_keep; auto). rewrite Z0. ring.
Qed.
