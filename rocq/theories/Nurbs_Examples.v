(** Concrete rational and tensor product splines. *)
From Coq Require Import Reals Lra Lia List Arith Bool ZArith.
From Verif Require Import Blossom Spline_Model Spline_Spec Spline_Proofs Spline_Proofs2 Spline_Proofs3 Splop_Model Splop_Spec Span_Proofs Span_Proofs2 Splop_Proofs
  Splop_Proofs2 Splop_Proofs3 Splop_Proofs4 Obst_Model Bern_Spec Bern_Proofs Bern_Proofs2 Bern_Proofs3 Nurbs_Model Nurbs_Spec Nurbs_Proofs Nurbs_Proofs2 Nurbs_Proofs3
  Nurbs_Proofs4 Nurbs_Proofs5 Nurbs_Proofs6.
Import ListNotations.
Local Open Scope R_scope.

Lemma div_exists : forall s1 s2 a b, sbasis s1 = bern a -> sbasis s2 = bern b -> sized s2 -> (Nat.max a b <= 250)%nat ->
  (forall w, length w = blen (bern (Nat.max a b)) -> (forall x, 0 <= x <= 1 -> dot (eval_basis (bern (Nat.max a b)) x) w = call s2 x) -> forall v, In v w -> v <> 0) ->
  exists n, div_spline 0 s1 s2 = Some n.
Proof.
  intros s1 s2 a b B1 B2 S2 M H. unfold div_spline. rewrite B1, B2, add_bern. set (d := Nat.max a b) in *.
  destruct (transform_total 0 (bern d) (fun i => eval_basis (bern b) (grid_pt (bern d) i)) (blen (bern b)) (bern_regular d M)) as [T2 E2].
  destruct (transform_total 0 (bern d) (fun i => eval_basis (bern a) (grid_pt (bern d) i)) (blen (bern a)) (bern_regular d M)) as [T1 E1].
  unfold transform_basis. rewrite E2, E1. unfold over.
  assert (D : (degree (sbasis s2) <= degree (bern d))%nat) by (rewrite B2; cbn; lia).
  replace (forallb _ _) with true; [eexists; reflexivity|]. symmetry. apply forallb_forall. intros v I. apply negb_true_iff, Reqb_false.
  revert v I. apply H; [apply cols_dot_length|]. intros x X. apply close_0. rewrite <- (Rmult_0_l (size_of (coeffs s2))).
  apply (transform_call 0 (bern d) s2 T2 0 1); auto; try lra; try (apply bern_clamped); rewrite ?B2; try (apply bern_clamped).
  - apply keeps_free. intros t I [Y Z]. unfold bern in I. cbn [knots] in I. apply in_app_or in I. destruct I as [I|I]; apply repeat_spec in I; lra.
  - exact E2.
Qed.
Lemma quad_coeffs : forall w p, length w = blen (bern 2) -> (forall x, 0 <= x <= 1 -> dot (eval_basis (bern 2) x) w = p x) ->
  w = [p 0; 2 * p (1/2) - (p 0 + p 1) / 2; p 1].
Proof.
  intros w p L H. destruct w as [|w0 [|w1 [|w2 [|w3 w]]]]; try discriminate.
  change (bern 2) with obasis in H. pose proof (H 0 ltac:(lra)) as H0. pose proof (H 1 ltac:(lra)) as H1. pose proof (H (1/2) ltac:(lra)) as H2.
  rewrite obasis_eval in H0, H1, H2 by lra. cbn [dot] in H0, H1, H2. repeat (apply f_equal2; [lra|]). reflexivity.
Qed.
Lemma skew_den : forall x, 0 <= x <= 1 -> call (den skew) x = 1 + x.
Proof. intros x X. unfold den, skew. cbn [nbasis weights]. rewrite line_call by exact X. ring. Qed.
Lemma skew_num : forall x, 0 <= x <= 1 -> call (num skew) x = 2 * x.
Proof. intros x X. unfold num, skew, times2. cbn [nbasis weights ncoeffs combine map fst snd]. rewrite line_call by exact X. ring. Qed.
Lemma skew_call : forall x, 0 <= x <= 1 -> ncall skew x = 2 * x / (1 + x).
Proof. intros x X. rewrite ncall_ratio by (split; reflexivity). rewrite skew_den, skew_num by exact X. reflexivity. Qed.
Lemma skew_sized : nsized skew. Proof. split; reflexivity. Qed.
Lemma skew_clamped : clamped_on (nbasis skew) 0 1. Proof. apply lbasis_clamped. Qed.
Lemma skew_pos : forall w, In w (weights skew) -> 0 < w. Proof. intros w [<-|[<-|[]]]; lra. Qed.
Lemma skew_no_inner : no_inner (nbasis skew) 0 1.
Proof. intros t I. cbn in I. intuition lra. Qed.
Lemma line_div : exists n, div_spline 0 (mkS lbasis [3; 1]) (mkS lbasis [1; 2]) = Some n /\ forall x, 0 <= x <= 1 -> ncall n x = (3 - 2 * x) / (1 + x).
Proof.
  destruct (div_exists (mkS lbasis [3; 1]) (mkS lbasis [1; 2]) 1 1 eq_refl eq_refl eq_refl ltac:(cbn; lia)) as [n E].
  { intros w L H v I. change (bern (Nat.max 1 1)) with lbasis in *. destruct w as [|w0 [|w1 [|w2 w]]]; try discriminate.
    pose proof (H 0 ltac:(lra)) as H0. pose proof (H 1 ltac:(lra)) as H1. rewrite line_call in H0, H1 by lra.
    rewrite lbasis_eval in H0, H1 by lra. cbn [dot] in H0, H1. destruct I as [<-|[<-|[]]]; lra. }
  exists n. split; auto. intros x X. rewrite (div_exact (mkS lbasis [3; 1]) (mkS lbasis [1; 2]) n 0 1 x lbasis_clamped lbasis_clamped eq_refl eq_refl E X).
  rewrite !line_call by exact X. f_equal; ring.
Qed.
Lemma skew_mul : exists n, nmul 0 skew (mkS lbasis [1; 0]) = Some n /\ forall x, 0 <= x <= 1 -> ncall n x = 2 * x * (1 - x) / (1 + x).
Proof.
  destruct (mul_bern_ok 0 (num skew) (mkS lbasis [1; 0]) 1 1 eq_refl eq_refl ltac:(lia)) as (m & EM & BM).
  destruct (div_exists m (den skew) 2 1 BM eq_refl eq_refl ltac:(cbn; lia)) as [n E].
  { intros w L H v I. change (Nat.max 2 1) with 2%nat in *. rewrite (quad_coeffs w _ L H) in I. rewrite !skew_den in I by lra. destruct I as [<-|[<-|[<-|[]]]]; lra. }
  exists n. split. { unfold nmul. rewrite EM. exact E. } intros x X.
  rewrite (nmul_exact skew (mkS lbasis [1; 0]) n 0 1 x skew_sized skew_clamped lbasis_clamped eq_refl); auto.
  - rewrite skew_call, line_call by exact X. field. lra.
  - unfold nmul. rewrite EM. exact E.
  - rewrite skew_den by exact X. lra.
Qed.
Lemma skew_add : exists n, nadd 0 skew skew = Some n /\ forall x, 0 <= x <= 1 -> ncall n x = 4 * x / (1 + x).
Proof.
  destruct (mul_bern_ok 0 (num skew) (den skew) 1 1 eq_refl eq_refl ltac:(lia)) as (p & EP & BP).
  destruct (mul_bern_ok 0 (den skew) (num skew) 1 1 eq_refl eq_refl ltac:(lia)) as (q & EQ & BQ).
  destruct (mul_bern_ok 0 (den skew) (den skew) 1 1 eq_refl eq_refl ltac:(lia)) as (d & ED & BD).
  destruct (add_bern_ok 0 p q 2 2 BP BQ ltac:(cbn; lia)) as (s & ES & BS).
  destruct (mul_spline_basis _ _ _ _ ED) as [_ SD].
  destruct (div_exists s d 2 2 BS BD SD ltac:(cbn; lia)) as [n E].
  { intros w L H v I. change (Nat.max 2 2) with 2%nat in *. rewrite (quad_coeffs w _ L H) in I.
    destruct (num_sized skew skew_sized) as [_ S].
    assert (V : forall x, 0 <= x <= 1 -> call d x = (1 + x) * (1 + x)).
    { intros x X. rewrite (mul_exact (den skew) (den skew) d 0 1 x skew_clamped skew_clamped S S ED), skew_den by exact X. reflexivity. }
    rewrite !V in I by lra. destruct I as [<-|[<-|[<-|[]]]]; lra. }
  assert (EA : nadd 0 skew skew = Some n). { unfold nadd. rewrite EP, EQ, ED, ES. exact E. }
  exists n. split; auto. intros x X. rewrite (nadd_exact skew skew n 0 1 x); auto using skew_sized, skew_clamped; try (rewrite skew_den by exact X; lra).
  rewrite skew_call by exact X. field. lra.
Qed.
Lemma skew_scale : exists n, nmul_num 0 skew 3 = Some n /\ forall x, 0 <= x <= 1 -> ncall n x = 6 * x / (1 + x).
Proof.
  destruct (div_exists (mul_num (num skew) 3) (den skew) 1 1 eq_refl eq_refl eq_refl ltac:(cbn; lia)) as [n E].
  { intros w L H v I. change (bern (Nat.max 1 1)) with lbasis in *. destruct w as [|w0 [|w1 [|w2 w]]]; try discriminate.
    pose proof (H 0 ltac:(lra)) as H0. pose proof (H 1 ltac:(lra)) as H1. rewrite skew_den in H0, H1 by lra.
    rewrite lbasis_eval in H0, H1 by lra. cbn [dot] in H0, H1. destruct I as [<-|[<-|[]]]; lra. }
  exists n. split; auto. intros x X. rewrite (nmul_num_exact skew 3 n 0 1 x skew_sized skew_clamped E X), skew_call by exact X. field. lra.
Qed.
Lemma skew_deriv : exists n, nderiv 0 skew = Some n /\ forall x, 0 <= x <= 1 -> ncall n x = 2 / (1 + x) ^ 2.
Proof.
  destruct (mul_bern_ok 0 (den skew) (den skew) 1 1 eq_refl eq_refl ltac:(lia)) as (d & ED & BD).
  destruct (mul_spline_basis _ _ _ _ ED) as [_ SD]. destruct (num_sized skew skew_sized) as [_ S].
  assert (V : forall x, 0 <= x <= 1 -> call d x = (1 + x) * (1 + x)).
  { intros x X. rewrite (mul_exact (den skew) (den skew) d 0 1 x skew_clamped skew_clamped S S ED), skew_den by exact X. reflexivity. }
  assert (W : coeffs d = [1; 2; 4]).
  { rewrite (quad_coeffs (coeffs d) (fun x => (1 + x) * (1 + x))). { repeat (apply f_equal2; [lra|]); reflexivity. }
    { rewrite SD, BD. reflexivity. } intros x X. rewrite <- V by exact X. unfold call. rewrite BD. reflexivity. }
  assert (EX : exists n, nderiv 0 skew = Some n).
  { unfold nderiv. replace (pow_spline 0 (den skew) 2) with (Some d).
    2:{ change (pow_spline 0 (den skew) 2) with (match mul_spline 0 (den skew) (den skew) with None => None | Some a => Some a end). rewrite ED. reflexivity. }
    cbv zeta. match goal with |- exists n, match transform 0 (sbasis d) ?o ?w with _ => _ end = _ => destruct (transform_total 0 (sbasis d) o w) as [T ET] end.
    { rewrite BD. apply bern_regular. lia. }
    rewrite ET. unfold over. rewrite W. replace (forallb _ _) with true; [eexists; reflexivity|].
    symmetry. apply forallb_forall. intros v I. apply negb_true_iff, Reqb_false. destruct I as [<-|[<-|[<-|[]]]]; lra. }
  destruct EX as [n E]. exists n. split; auto. intros x X.
  destruct (nderiv_parts skew n 0 1 skew_sized skew_clamped ltac:(cbn; lia) skew_no_inner E) as (SZ & _ & _ & _ & H).
  destruct (H x X) as [HN HD]. rewrite ncall_ratio by exact SZ. rewrite HN, HD, skew_den, skew_num by exact X.
  assert (DV : forall c0 c1, call (derivative (mkS lbasis [c0; c1]) 1) x = c1 - c0).
  { intros c0 c1. unfold derivative. cbn [sbasis coeffs]. change (mkB (slice_oo 1 (knots lbasis)) (degree lbasis - 1)) with (bern 0).
    unfold call. cbn [sbasis coeffs deriv_loop].
    assert (DC : deriv_step (degree lbasis - 0) (trim (knots lbasis)) [c0; c1] = [c1 - c0]). { unfold deriv_step. cbn. f_equal. field. }
    rewrite DC. assert (P := partition_of_unity (bern 0) x ltac:(apply (bern_clamped 0)) (clamped_in _ 0 1 x (bern_clamped 0) X)).
    assert (L : length (eval_basis (bern 0) x) = 1%nat) by (rewrite blen_eval; reflexivity).
    destruct (eval_basis (bern 0) x) as [|v [|w l]]; try discriminate. cbn in P |- *. unfold total in P. cbn in P. replace v with 1 by lra. ring. }
  unfold num at 1, den at 1, skew, times2. cbn [nbasis weights ncoeffs combine map fst snd]. rewrite !DV. field. lra.
Qed.
Lemma even_insert : exists n, ninsert 0 (mkN lbasis [2; 2] [0; 1]) [1/2] = Some n /\ forall x, 0 <= x <= 1 -> ncall n x = x.
Proof.
  destruct (transform_total 0 tent (fun i => eval_basis lbasis (grid_pt tent i)) (blen lbasis) tent_regular) as [T ET].
  assert (E : exists n, ninsert 0 (mkN lbasis [2; 2] [0; 1]) [1/2] = Some n).
  { unfold ninsert. cbn [nbasis]. rewrite tent_insert. unfold transform_basis. rewrite ET. eexists. reflexivity. }
  destruct E as [n E]. exists n. split; auto. intros x X.
  rewrite (ninsert_even (mkN lbasis [2; 2] [0; 1]) [1/2] n 0 1 2 x (conj eq_refl eq_refl) lbasis_clamped); auto; try lra.
  - unfold ncall, nurbs_row, times2. cbn [nbasis weights ncoeffs]. rewrite lbasis_eval by exact X. cbn. field. lra.
  - intros t [<-|[]]. lra.
Qed.

(** ** tensors *)
Definition lt2 (c : array) : tensor := mkT [lbasis; lbasis] c.
(** x y *)
Definition xy : tensor := lt2 (fun idx => match idx with [1; 1]%nat => 1 | _ => 0 end).
(** x + 2 y *)
Definition x2y : tensor := lt2 (fun idx => INR (nth 0 idx 0%nat) + 2 * INR (nth 1 idx 0%nat)).
Definition unit2 : box := [(0, 1); (0, 1)].
Lemma unit2_clamped : forall c, clamped_box unit2 (tbasis (lt2 c)).
Proof. intros c. apply Forall2_cons; [exact lbasis_clamped|]. apply Forall2_cons; [exact lbasis_clamped|apply Forall2_nil]. Qed.
Lemma unit2_in : forall x y, 0 <= x <= 1 -> 0 <= y <= 1 -> in_box unit2 [x; y].
Proof. intros x y X Y. apply Forall2_cons; [exact X|]. apply Forall2_cons; [exact Y|apply Forall2_nil]. Qed.
Lemma lt2_call : forall c x y, 0 <= x <= 1 -> 0 <= y <= 1 -> tcall (lt2 c) [x; y]
  = (1 - x) * ((1 - y) * c [0; 0]%nat + y * c [0; 1]%nat) + x * ((1 - y) * c [1; 0]%nat + y * c [1; 1]%nat).
Proof.
  intros c x y X Y. rewrite tcall_tsum by reflexivity. unfold lt2. cbn [tbasis tcoeffs tsum]. change (blen lbasis) with 2%nat. cbn [seq map].
  rewrite !lbasis_eval by assumption. unfold total. cbn. ring.
Qed.
Lemma xy_call : forall x y, 0 <= x <= 1 -> 0 <= y <= 1 -> tcall xy [x; y] = x * y.
Proof. intros x y X Y. unfold xy. rewrite lt2_call by assumption. ring. Qed.
Lemma x2y_call : forall x y, 0 <= x <= 1 -> 0 <= y <= 1 -> tcall x2y [x; y] = x + 2 * y.
Proof. intros x y X Y. unfold x2y. rewrite lt2_call by assumption. cbn. ring. Qed.
Lemma lt2_add : forall c d, exists t, tadd 0 (lt2 c) (lt2 d) = Some t.
Proof.
  intros c d. unfold tadd, lt2, map2. cbn [tbasis combine map fst snd]. rewrite (add_bern 1 1 : basis_add lbasis lbasis = lbasis).
  destruct (transform_total 0 lbasis (fun i => eval_basis lbasis (grid_pt lbasis i)) (blen lbasis) (bern_regular 1 ltac:(lia))) as [T ET].
  unfold transform_basis. rewrite ET. cbn [oall]. eexists. reflexivity.
Qed.
Lemma lt2_mul : forall c d, exists t, tmul 0 (lt2 c) (lt2 d) = Some t.
Proof.
  intros c d. unfold tmul, lt2. cbn [tbasis]. rewrite (mul_bern 1 1 : basis_mul lbasis lbasis = bern (1 + 1)).
  destruct (transform_total 0 (bern (1 + 1)) (product_row (bern (1 + 1)) lbasis lbasis) (length (pairs lbasis lbasis)) (bern_regular (1 + 1) ltac:(lia))) as [T ET].
  rewrite ET. eexists. reflexivity.
Qed.
Lemma tmul_plane_only : forall tol t1 t2 t, tmul tol t1 t2 = Some t -> length (tbasis t1) = 2%nat /\ length (tbasis t2) = 2%nat.
Proof.
  intros tol [bs1 c1] [bs2 c2] t E. unfold tmul in E. cbn [tbasis] in *.
  destruct bs1 as [|a0 [|a1 [|a2 bs1]]]; try discriminate. destruct bs2 as [|b0 [|b1 [|b2 bs2]]]; try discriminate. auto.
Qed.
Lemma trsub_refuted : exists t a X xs, clamped_box X (tbasis t) /\ in_box X xs /\ tcall (trsub_num a t) xs <> a - tcall t xs.
Proof.
  exists xy, 3, unit2, [1/2; 1/2]. split; [apply unit2_clamped|]. split; [apply unit2_in; lra|].
  rewrite (trsub_num_call xy 3 unit2) by (apply unit2_clamped || (apply unit2_in; lra)). rewrite xy_call by lra. lra.
Qed.
(** degree zero bases of different lengths *)
Definition z0 : bbasis := mkB [0; 1; 3] 0.
Definition z1 : bbasis := mkB [0; 1; 2] 0.
Definition z2 : bbasis := mkB [0; 1] 0.
Lemma zclamped : clamped_on z0 0 3 /\ clamped_on z1 0 2 /\ clamped_on z2 0 1.
Proof.
  repeat split; try (cbn; lia); try (cbn; lra); apply nondecreasing_bool; intros i H; cbn in H; do 3 (try (destruct i as [|i]; [cbn; lra|])); lia.
Qed.
Definition spot : array := fun idx => match idx with [1; 0; 0]%nat => 1 | _ => 0 end.
Theorem tintegral_refuted : exists t X v, clamped_box X (tbasis t) /\ tintegral t = Some v /\ v <> tint (tbasis t) (tcoeffs t).
Proof.
  exists (mkT [z0; z1; z2] spot), [(0, 3); (0, 2); (0, 1)], 1. destruct zclamped as (A & B & C). split; [repeat (apply Forall2_cons; [assumption|]); apply Forall2_nil|]. split.
  - unfold tintegral. cbn [tbasis tcoeffs map]. unfold spans_of, z0, z1, z2, kn. cbn [knots degree length Nat.add Nat.sub seq map nth last removelast].
    cbn. f_equal. field.
  - rewrite tint_vsum. cbn [tbasis tcoeffs map]. unfold spans_of, z0, z1, z2, kn. cbn [knots degree length Nat.add Nat.sub seq map nth].
    unfold vsum, total. cbn. lra.
Qed.
Theorem tintegral_raises : exists t X, clamped_box X (tbasis t) /\ tintegral t = None.
Proof.
  exists (mkT [z0; z2; z2] spot), [(0, 3); (0, 1); (0, 1)]. destruct zclamped as (A & B & C). split; [repeat (apply Forall2_cons; [assumption|]); apply Forall2_nil|]. reflexivity.
Qed.
