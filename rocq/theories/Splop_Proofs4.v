(** When the linear solver succeeds, and a worked product. *)
From Coq Require Import Reals Lra Lia List Arith Bool ZArith Permutation.
From Verif Require Import Blossom Spline_Model Spline_Spec Spline_Proofs Spline_Proofs2 Spline_Proofs4
  Span_Proofs Span_Proofs2 Splop_Model Splop_Spec Splop_Proofs Splop_Proofs2 Splop_Proofs3
  Obst_Model Obst_Proofs.
Import ListNotations.
Local Open Scope R_scope.

Lemma take_pivot_none : forall rows, take_pivot rows = None -> forall r, In r rows -> hd 0 (fst r) = 0.
Proof.
  induction rows as [|r rows IH]; intros H q I; [destruct I|]. simpl in H.
  destruct (Reqb (hd 0 (fst r)) 0) eqn:E; [|discriminate].
  destruct (take_pivot rows) as [[p o]|] eqn:T; [discriminate|].
  destruct I as [<-|I]; [apply Reqb_true; exact E|apply IH; auto].
Qed.

Lemma dot_zero_r : forall u n, dot u (repeat 0 n) = 0.
Proof. induction u as [|a u IH]; intros [|n]; simpl; try reflexivity. rewrite IH. ring. Qed.


(** a square system whose homogeneous version has only the zero solution is solved *)
Theorem gsolve_total : forall n rows, length rows = n ->
  (forall r, In r rows -> length (fst r) = n) ->
  only_zero n (map fst rows) -> exists x, gsolve n rows = Some x.
Proof.
  induction n as [|n IH]; intros rows L LR OZ.
  - destruct rows; [|discriminate]. exists []. reflexivity.
  - simpl. destruct (take_pivot rows) as [[p rest]|] eqn:T.
    + destruct (take_pivot_spec _ _ _ T) as [P NZ].
      assert (LP : length (fst p) = S n).
      { apply LR. apply (Permutation_in p (Permutation_sym P)). left; reflexivity. }
      assert (LQ : forall r, In r rest -> length (fst r) = S n).
      { intros r I. apply LR. apply (Permutation_in r (Permutation_sym P)). right; exact I. }
      destruct (IH (map (eliminate p) rest)) as [x G].
      * rewrite map_length. apply Permutation_length in P. simpl in P. lia.
      * intros r I. apply in_map_iff in I. destruct I as [q [E I]]. subst r. unfold eliminate. cbn [fst].
        rewrite map_length, combine_length. specialize (LQ q I).
        destruct (fst q) as [|? qa]; [discriminate|]. destruct (fst p) as [|? pa]; [discriminate|].
        simpl in *. lia.
      * intros y Ly HY. destruct p as [pa pb]. cbn [fst] in *. destruct pa as [|p0 pa]; [discriminate|].
        cbn [hd] in NZ. simpl in LP.
        assert (Z : (- dot pa y / p0) :: y = repeat 0 (S n)).
        { apply OZ; [simpl; lia|]. intros r I. apply in_map_iff in I. destruct I as [q [E I]]. subst r.
          apply (Permutation_in q P) in I. destruct I as [<-|I].
          - cbn [fst dot]. field. exact NZ.
          - specialize (HY (fst (eliminate (p0 :: pa, pb) q))).
            assert (HE : dot (fst (eliminate (p0 :: pa, pb) q)) y = 0).
            { apply HY. rewrite map_map. apply in_map_iff. exists q. split; [reflexivity|exact I]. }
            specialize (LQ q I). unfold eliminate in HE. cbn [fst hd tl] in HE.
            destruct (fst q) as [|q0 qa]; [discriminate|]. cbn [hd tl] in HE. simpl in LQ.
            rewrite dot_sub in HE by lia. cbn [dot].
            replace (q0 * (- dot pa y / p0)) with (- (q0 / p0 * dot pa y)) by (field; exact NZ). lra. }
        exact (f_equal (@tl R) Z).
      * rewrite G. eexists. reflexivity.
    + exfalso.
      assert (Z : 1 :: repeat 0 n = repeat 0 (S n)).
      { apply OZ; [simpl; rewrite repeat_length; reflexivity|]. intros r I.
        apply in_map_iff in I. destruct I as [q [E I]]. subst r.
        pose proof (take_pivot_none rows T q I) as HZ. destruct (fst q) as [|q0 qa]; [reflexivity|].
        cbn [hd] in HZ. cbn [dot]. rewrite dot_zero_r, HZ. ring. }
      pose proof (f_equal (hd 0) Z) as Z'. simpl in Z'. lra.
Qed.

Lemma map_fst_combine_map : forall (A B : Type) (f : nat -> A) (g : nat -> B) l,
  map fst (combine (map f l) (map g l)) = map f l.
Proof. induction l; simpl; [reflexivity|]. rewrite IHl. reflexivity. Qed.

Lemma oall_map_some : forall (A : Type) (f : nat -> option A) l,
  (forall c, In c l -> exists a, f c = Some a) -> exists r, oall (map f l) = Some r.
Proof.
  induction l as [|c l IH]; intros H; [exists []; reflexivity|]. simpl.
  destruct (H c (or_introl eq_refl)) as [a E]. rewrite E.
  destruct IH as [r R]; [intros; apply H; right; assumption|]. rewrite R. eexists. reflexivity.
Qed.

(** the transformation exists as soon as the collocation matrix is regular *)
Theorem transform_total : forall tol b other w,
  only_zero (blen b) (colloc b) -> exists T, transform tol b other w = Some T.
Proof.
  intros tol b other w OZ. unfold transform. apply oall_map_some. intros c _.
  match goal with |- context [gsolve ?n ?r] => destruct (gsolve_total n r) as [x G] end.
  - unfold colloc. rewrite combine_length, !map_length, seq_length. apply Nat.min_id.
  - intros [ra rb] I. apply in_combine_l in I. apply colloc_len in I. exact I.
  - unfold colloc in *. rewrite map_fst_combine_map. exact OZ.
  - rewrite G. eexists. reflexivity.
Qed.

(** ** argmax *)
Lemma argmax_go_keep : forall l i best v, (forall a, In a l -> a <= v) -> argmax_go l i best v = best.
Proof.
  induction l as [|a l IH]; intros i best v H; [reflexivity|]. simpl.
  replace (Rltb v a) with false.
  - apply IH. intros; apply H; right; assumption.
  - symmetry. apply Rltb_false. apply H. left; reflexivity.
Qed.
Lemma argmax_go_find : forall l1 z l2 i best v, v < z -> (forall a, In a l1 -> a < z) ->
  (forall a, In a l2 -> a <= z) -> argmax_go (l1 ++ z :: l2) i best v = (i + length l1)%nat.
Proof.
  induction l1 as [|a l1 IH]; intros z l2 i best v HV H1 H2; simpl.
  - replace (Rltb v z) with true by (symmetry; apply Rltb_true; exact HV).
    rewrite argmax_go_keep by exact H2. lia.
  - destruct (Rltb v a) eqn:E.
    + rewrite IH; [simpl; lia|apply H1; left; reflexivity|intros; apply H1; right; assumption|exact H2].
    + rewrite IH; [simpl; lia|exact HV|intros; apply H1; right; assumption|exact H2].
Qed.
Lemma argmax_spec : forall (f : nat -> R) n p, (p < n)%nat ->
  (forall i, (i < p)%nat -> f i < f p) -> (forall i, (p < i < n)%nat -> f i <= f p) ->
  argmax (map f (seq 0 n)) = p.
Proof.
  intros f n p Hp H1 H2.
  destruct p as [|p].
  - destruct n as [|n]; [lia|]. simpl. apply argmax_go_keep. intros a I. apply in_map_iff in I.
    destruct I as [i [E I]]. apply in_seq in I. subst a. apply H2. lia.
  - replace n with (1 + (p + (1 + (n - p - 2))))%nat by lia.
    rewrite !seq_app, !map_app. simpl seq. simpl map.
    unfold argmax. simpl app at 1. cbv iota beta.
    rewrite argmax_go_find.
    + rewrite map_length, seq_length. lia.
    + apply H1. lia.
    + intros a I. apply in_map_iff in I. destruct I as [i [E I]]. apply in_seq in I. subst a. apply H1. lia.
    + intros a I. apply in_map_iff in I. destruct I as [i [E I]]. apply in_seq in I. subst a. apply H2. lia.
Qed.

(** ** worked example: the square of the line x |-> x on [0,1] *)
Definition lbasis : bbasis := mkB [0; 0; 1; 1] 1.
Definition lline : bspline := mkS lbasis [0; 1].

Lemma nondecreasing_bool : forall l, (forall i, (S i < length l)%nat -> nth i l 0 <= nth (S i) l 0) ->
  nondecreasing l.
Proof.
  intros l H i j Hij Hj. induction j as [|j IH].
  - replace i with 0%nat by lia. lra.
  - destruct (Nat.eq_dec i (S j)) as [->|N]; [lra|].
    apply Rle_trans with (nth j l 0); [apply IH; lia|apply H; exact Hj].
Qed.
Ltac knots_ok := apply nondecreasing_bool; let i := fresh in let H := fresh in
  intros i H; simpl in H; do 8 (try (destruct i as [|i]; [simpl; lra|])); simpl in *; lia.

Lemma lbasis_clamped : clamped_on lbasis 0 1.
Proof.
  split; [split; [knots_ok|simpl; lia]|]. unfold clamped; simpl. repeat split; lra.
Qed.
Lemma lline_sized : sized lline. Proof. reflexivity. Qed.

Lemma mul_line_basis : basis_mul lbasis lbasis = obasis.
Proof.
  unfold basis_mul, combine_bases, obasis, lbasis. simpl degree. simpl knots. f_equal.
  assert (E : nodup Req_EM_T [0; 0; 1; 1; 0; 0; 1; 1] = [0; 1]).
  { simpl. repeat (match goal with |- context [Req_EM_T ?a ?c] => destruct (Req_EM_T a c); try lra end).
    all: try reflexivity.
    all: repeat (match goal with |- context [in_dec Req_EM_T ?a ?c] => destruct (in_dec Req_EM_T a c) as [I|I]; simpl in I end);
      try tauto; try (exfalso; intuition lra). }
  change ([0; 0; 1; 1] ++ [0; 0; 1; 1]) with [0; 0; 1; 1; 0; 0; 1; 1]. rewrite E.
  assert (L0 : lifted (mkB [0; 0; 1; 1] 1) (1 + 1) 0 = Some 3%Z).
  { unfold lifted, occurrences. simpl. destruct (Req_EM_T 0 0); [|lra]. destruct (Req_EM_T 1 0); [lra|]. reflexivity. }
  assert (L1 : lifted (mkB [0; 0; 1; 1] 1) (1 + 1) 1 = Some 3%Z).
  { unfold lifted, occurrences. simpl. destruct (Req_EM_T 0 1); [lra|]. destruct (Req_EM_T 1 1); [|lra]. reflexivity. }
  cbn [flat_map]. rewrite L0, L1. simpl.
  assert (T00 : Rleb 0 0 = true) by (apply Rleb_true; lra).
  assert (T01 : Rleb 0 1 = true) by (apply Rleb_true; lra).
  assert (T11 : Rleb 1 1 = true) by (apply Rleb_true; lra).
  repeat (rewrite ?T11, ?T01, ?T00; simpl). reflexivity.
Qed.

Lemma obasis_eval : forall u, 0 <= u <= 1 -> eval_basis obasis u = [(1 - u)^2; 2 * u * (1 - u); u^2].
Proof.
  intros u Hu. apply list_nth_ext; [rewrite blen_eval; reflexivity|].
  intros i Hi. rewrite blen_eval in Hi. cbn in Hi.
  rewrite <- (call_unit obasis i u) by (cbn; lia).
  destruct i as [|[|[|i]]]; try lia; cbn [blen obasis length knots degree Nat.sub unitv map seq Nat.eqb nth];
    change (mkB [0; 0; 0; 1; 1; 1] 2) with obasis; rewrite oseg_call by exact Hu; ring.
Qed.

Lemma ogrid : forall i, grid_pt obasis i = INR i / 500.
Proof.
  intros. unfold grid_pt, no_points, obasis. cbn [knots hd last].
  replace (INR (501 - 1)) with 500; [field|]. rewrite INR_IZR_INZ. simpl. reflexivity.
Qed.

Lemma grid_frac : forall i, (i < no_points)%nat -> 0 <= INR i / 500 <= 1.
Proof.
  intros i H. assert (A : 0 <= INR i) by apply pos_INR.
  assert (B : INR i <= 500).
  { replace 500 with (INR 500) by (rewrite INR_IZR_INZ; reflexivity). apply le_INR. unfold no_points in H. lia. }
  lra.
Qed.
Lemma INR_500 : INR 500 = 500. Proof. rewrite INR_IZR_INZ; reflexivity. Qed.
Lemma INR_250 : INR 250 = 250. Proof. rewrite INR_IZR_INZ; reflexivity. Qed.

Lemma maxpos_mid : maxpos obasis 1 = 250%nat.
Proof.
  unfold maxpos.
  rewrite (map_ext_in _ (fun i => 2 * (INR i / 500) * (1 - INR i / 500))).
  2:{ intros i I. apply in_seq in I. rewrite ogrid, obasis_eval by (apply grid_frac; lia). reflexivity. }
  apply argmax_spec; [unfold no_points; lia| |].
  - intros i H. rewrite INR_250. apply lt_INR in H. rewrite INR_250 in H.
    pose proof (Rle_0_sqr (INR i / 500 - 1/2)). unfold Rsqr in H0.
    assert (0 < (1/2 - INR i / 500) * (1/2 - INR i / 500)) by (apply Rmult_lt_0_compat; lra). lra.
  - intros i H. rewrite INR_250. pose proof (Rle_0_sqr (INR i / 500 - 1/2)). unfold Rsqr in H0. lra.
Qed.
Lemma maxpos_first : maxpos obasis 0 = 0%nat.
Proof.
  unfold maxpos.
  rewrite (map_ext_in _ (fun i => (1 - INR i / 500)^2)).
  2:{ intros i I. apply in_seq in I. rewrite ogrid, obasis_eval by (apply grid_frac; lia). reflexivity. }
  apply argmax_spec; [unfold no_points; lia| |].
  - intros i H. lia.
  - intros i H. change (INR 0) with 0. pose proof (grid_frac i ltac:(lia)).
    replace ((1 - 0 / 500)^2) with 1 by field.
    assert (0 <= (INR i / 500) * (2 - INR i / 500)) by (apply Rmult_le_pos; lra). lra.
Qed.
Lemma maxpos_last : maxpos obasis 2 = 500%nat.
Proof.
  unfold maxpos.
  rewrite (map_ext_in _ (fun i => (INR i / 500)^2)).
  2:{ intros i I. apply in_seq in I. rewrite ogrid, obasis_eval by (apply grid_frac; lia). reflexivity. }
  apply argmax_spec; [unfold no_points; lia| |].
  - intros i H. apply lt_INR in H. rewrite INR_500 in *. pose proof (pos_INR i).
    replace ((500 / 500)^2) with 1 by field.
    assert (0 < (1 - INR i / 500) * (1 + INR i / 500)) by (apply Rmult_lt_0_compat; lra). lra.
  - intros i H. unfold no_points in H. lia.
Qed.

Lemma obasis_regular : only_zero (blen obasis) (colloc obasis).
Proof.
  change (blen obasis) with 3%nat. intros y L H. destruct y as [|y0 [|y1 [|y2 [|y3 y]]]]; try discriminate.
  assert (C : colloc obasis = [[1; 0; 0]; [1/4; 1/2; 1/4]; [0; 0; 1]]).
  { unfold colloc. change (blen obasis) with 3%nat. cbn [seq map].
    rewrite maxpos_first, maxpos_mid, maxpos_last, !ogrid, INR_250, INR_500. change (INR 0) with 0.
    rewrite !obasis_eval by lra. repeat match goal with |- _ :: _ = _ :: _ => f_equal end; try reflexivity; field. }
  rewrite C in H.
  pose proof (H _ (or_introl eq_refl)) as H0.
  pose proof (H _ (or_intror (or_introl eq_refl))) as H1.
  pose proof (H _ (or_intror (or_intror (or_introl eq_refl)))) as H2.
  cbn [dot] in H0, H1, H2. assert (y0 = 0) by lra. assert (y2 = 0) by lra. assert (y1 = 0) by lra.
  subst. reflexivity.
Qed.

Lemma square_succeeds : forall tol c0 c1, exists s, mul_spline tol (mkS lbasis [c0; c1]) (mkS lbasis [c0; c1]) = Some s.
Proof.
  intros tol c0 c1. unfold mul_spline. cbn [sbasis].
  destruct (transform_total tol (basis_mul lbasis lbasis)
     (product_row (basis_mul lbasis lbasis) lbasis lbasis) (length (pairs lbasis lbasis))) as [T HT].
  - rewrite mul_line_basis. apply obasis_regular.
  - rewrite HT. eexists. reflexivity.
Qed.

Lemma line_call : forall c0 c1 x, 0 <= x <= 1 -> call (mkS lbasis [c0; c1]) x = (1 - x) * c0 + x * c1.
Proof.
  intros c0 c1 x Hx. rewrite (call_diag _ x 1).
  - cbn. unfold dbstep, sh, shn, cf, kn; simpl. field.
  - apply lbasis_clamped.
  - reflexivity.
  - unfold active, kn; simpl. split; [lia|]. split; [lia|]. split; [lra|].
    destruct (Req_dec x 0); [right|left]; repeat split; lra.
Qed.

(** ** a degree 2 spline plus a line *)
Lemma add_mixed_basis : basis_add obasis lbasis = obasis.
Proof.
  unfold basis_add, combine_bases, obasis, lbasis. simpl degree. simpl knots. f_equal.
  assert (E : nodup Req_EM_T [0; 0; 0; 1; 1; 1; 0; 0; 1; 1] = [0; 1]).
  { simpl. repeat (match goal with |- context [Req_EM_T ?a ?c] => destruct (Req_EM_T a c); try lra end).
    all: try reflexivity.
    all: repeat (match goal with |- context [in_dec Req_EM_T ?a ?c] => destruct (in_dec Req_EM_T a c) as [I|I]; simpl in I end);
      try tauto; try (exfalso; intuition lra). }
  change ([0; 0; 0; 1; 1; 1] ++ [0; 0; 1; 1]) with [0; 0; 0; 1; 1; 1; 0; 0; 1; 1]. rewrite E.
  assert (L0 : lifted (mkB [0; 0; 1; 1] 1) (Nat.max 2 1) 0 = Some 3%Z).
  { unfold lifted, occurrences. simpl. destruct (Req_EM_T 0 0); [|lra]. destruct (Req_EM_T 1 0); [lra|]. reflexivity. }
  assert (L1 : lifted (mkB [0; 0; 1; 1] 1) (Nat.max 2 1) 1 = Some 3%Z).
  { unfold lifted, occurrences. simpl. destruct (Req_EM_T 0 1); [lra|]. destruct (Req_EM_T 1 1); [|lra]. reflexivity. }
  assert (M0 : lifted (mkB [0; 0; 0; 1; 1; 1] 2) (Nat.max 2 1) 0 = Some 3%Z).
  { unfold lifted, occurrences. simpl. destruct (Req_EM_T 0 0); [|lra]. destruct (Req_EM_T 1 0); [lra|]. reflexivity. }
  assert (M1 : lifted (mkB [0; 0; 0; 1; 1; 1] 2) (Nat.max 2 1) 1 = Some 3%Z).
  { unfold lifted, occurrences. simpl. destruct (Req_EM_T 0 1); [lra|]. destruct (Req_EM_T 1 1); [|lra]. reflexivity. }
  cbn [flat_map]. rewrite L0, L1, M0, M1. simpl.
  assert (T00 : Rleb 0 0 = true) by (apply Rleb_true; lra).
  assert (T01 : Rleb 0 1 = true) by (apply Rleb_true; lra).
  assert (T11 : Rleb 1 1 = true) by (apply Rleb_true; lra).
  repeat (rewrite ?T11, ?T01, ?T00; simpl). reflexivity.
Qed.

Lemma add_mixed_succeeds : forall tol a c, exists s, add_spline tol (mkS obasis a) (mkS lbasis c) = Some s.
Proof.
  intros tol a c. unfold add_spline. cbn [sbasis]. rewrite add_mixed_basis. unfold transform_basis.
  destruct (transform_total tol obasis (fun i => eval_basis obasis (grid_pt obasis i)) (blen obasis) obasis_regular) as [T1 H1].
  destruct (transform_total tol obasis (fun i => eval_basis lbasis (grid_pt obasis i)) (blen lbasis) obasis_regular) as [T2 H2].
  rewrite H1, H2. eexists. reflexivity.
Qed.

Lemma obasis_clamped : clamped_on obasis 0 1.
Proof.
  split; [apply obasis_wf|]. unfold clamped; simpl. repeat split; lra.
Qed.

(** ** statements in terms of the knot multiplicity *)
Lemma size_app : forall a c, size_of (a ++ c) = size_of a + size_of c.
Proof. induction a; intros; simpl; [ring|]. rewrite IHa. ring. Qed.
Lemma size_filter_le : forall (f : nat -> R) p l, size_of (map f (filter p l)) <= size_of (map f l).
Proof.
  induction l as [|a l IH]; simpl; [lra|]. pose proof (Rabs_pos (f a)).
  destruct (p a); simpl; lra.
Qed.
Lemma size_scal : forall a (f : nat -> R) l, size_of (map (fun j => a * f j) l) = Rabs a * size_of (map f l).
Proof. induction l; simpl; [ring|]. rewrite IHl, Rabs_mult. ring. Qed.
Lemma size_nth : forall c, size_of (map (fun i => nth i c 0) (seq 0 (length c))) = size_of c.
Proof. intros. rewrite map_nth_seq_id. reflexivity. Qed.

Lemma products_size : forall s1 s2, sized s1 -> sized s2 ->
  size_of (coef_products s1 s2) <= size_of (coeffs s1) * size_of (coeffs s2).
Proof.
  intros s1 s2 Z1 Z2. unfold coef_products, pairs.
  replace (size_of (coeffs s1)) with (size_of (map (fun i => nth i (coeffs s1) 0) (seq 0 (blen (sbasis s1))))).
  2:{ rewrite <- (size_nth (coeffs s1)). unfold sized in Z1. rewrite Z1. reflexivity. }
  induction (seq 0 (blen (sbasis s1))) as [|i l IH]; [simpl; lra|].
  simpl flat_map. rewrite map_app, size_app, map_map. cbn [fst snd map size_of fold_right].
  rewrite size_scal. pose proof (Rabs_pos (nth i (coeffs s1) 0)).
  assert (S1 : size_of (map (fun x => nth x (coeffs s2) 0)
      (filter (fun j => overlap (support (sbasis s1) i) (support (sbasis s2) j)) (seq 0 (blen (sbasis s2)))))
      <= size_of (coeffs s2)).
  { eapply Rle_trans; [apply size_filter_le|]. rewrite <- (size_nth (coeffs s2)). unfold sized in Z2. rewrite Z2.
    unfold blen. lra. }
  change (fold_right (fun a s => Rabs a + s) 0 (map (fun i0 => nth i0 (coeffs s1) 0) l))
    with (size_of (map (fun i0 => nth i0 (coeffs s1) 0) l)).
  rewrite Rmult_plus_distr_r. apply Rplus_le_compat; [|exact IH].
  apply Rmult_le_compat_l; assumption.
Qed.

Theorem mul_close_size : forall tol s1 s2 s lo hi x, 0 <= tol ->
  clamped_on (sbasis s1) lo hi -> clamped_on (sbasis s2) lo hi -> sized s1 -> sized s2 ->
  mul_spline tol s1 s2 = Some s ->
  Rabs (call s x - call s1 x * call s2 x) <= tol * (size_of (coeffs s1) * size_of (coeffs s2)).
Proof.
  intros tol s1 s2 s lo hi x HT C1 C2 Z1 Z2 H.
  eapply Rle_trans; [apply (mul_close tol s1 s2 s lo hi x); auto|].
  apply Rmult_le_compat_l; [exact HT|]. apply products_size; assumption.
Qed.

(** smoothness at a knot: degree minus multiplicity; the combined basis has the
    smaller one of the operands that contain the knot *)
Lemma combine_smooth : forall b1 b2 deg t, (degree b1 <= deg)%nat -> (degree b2 <= deg)%nat ->
  let smooth b := (Z.of_nat (degree b) - Z.of_nat (mult b t))%Z in
  let m := Z.of_nat (mult (combine_bases b1 b2 deg) t) in
  ((0 < mult b1 t)%nat -> (0 < mult b2 t)%nat -> m = (Z.of_nat deg - Z.min (smooth b1) (smooth b2))%Z) /\
  ((0 < mult b1 t)%nat -> mult b2 t = 0%nat -> m = (Z.of_nat deg - smooth b1)%Z) /\
  (mult b1 t = 0%nat -> (0 < mult b2 t)%nat -> m = (Z.of_nat deg - smooth b2)%Z) /\
  (mult b1 t = 0%nat -> mult b2 t = 0%nat -> m = 0%Z).
Proof.
  intros b1 b2 deg t H1 H2. cbv zeta. change mult with (fun b t => cnt (knots b) t). cbv beta.
  rewrite combine_mult by assumption.
  destruct (Nat.eqb_spec (cnt (knots b1) t) 0); destruct (Nat.eqb_spec (cnt (knots b2) t) 0);
    repeat split; intros; lia.
Qed.

Lemma add_knots : forall b1 b2,
  let b := basis_add b1 b2 in
  nondecreasing (knots b) /\ degree b = Nat.max (degree b1) (degree b2) /\
  forall t, In t (knots b) <-> In t (knots b1) \/ In t (knots b2).
Proof.
  intros b1 b2 b. split; [apply combine_nondecreasing|]. split; [reflexivity|].
  intros t. apply combine_in; lia.
Qed.
Lemma mul_knots : forall b1 b2,
  let b := basis_mul b1 b2 in
  nondecreasing (knots b) /\ degree b = (degree b1 + degree b2)%nat /\
  forall t, In t (knots b) <-> In t (knots b1) \/ In t (knots b2).
Proof.
  intros b1 b2 b. split; [apply combine_nondecreasing|]. split; [reflexivity|].
  intros t. apply combine_in; lia.
Qed.
Lemma add_smooth : forall b1 b2 t,
  let deg := Nat.max (degree b1) (degree b2) in
  let smooth b := (Z.of_nat (degree b) - Z.of_nat (mult b t))%Z in
  let m := Z.of_nat (mult (basis_add b1 b2) t) in
  ((0 < mult b1 t)%nat -> (0 < mult b2 t)%nat -> m = (Z.of_nat deg - Z.min (smooth b1) (smooth b2))%Z) /\
  ((0 < mult b1 t)%nat -> mult b2 t = 0%nat -> m = (Z.of_nat deg - smooth b1)%Z) /\
  (mult b1 t = 0%nat -> (0 < mult b2 t)%nat -> m = (Z.of_nat deg - smooth b2)%Z) /\
  (mult b1 t = 0%nat -> mult b2 t = 0%nat -> m = 0%Z).
Proof. intros b1 b2 t. cbv zeta. apply combine_smooth; lia. Qed.
Lemma mul_smooth : forall b1 b2 t,
  let deg := (degree b1 + degree b2)%nat in
  let smooth b := (Z.of_nat (degree b) - Z.of_nat (mult b t))%Z in
  let m := Z.of_nat (mult (basis_mul b1 b2) t) in
  ((0 < mult b1 t)%nat -> (0 < mult b2 t)%nat -> m = (Z.of_nat deg - Z.min (smooth b1) (smooth b2))%Z) /\
  ((0 < mult b1 t)%nat -> mult b2 t = 0%nat -> m = (Z.of_nat deg - smooth b1)%Z) /\
  (mult b1 t = 0%nat -> (0 < mult b2 t)%nat -> m = (Z.of_nat deg - smooth b2)%Z) /\
  (mult b1 t = 0%nat -> mult b2 t = 0%nat -> m = 0%Z).
Proof. intros b1 b2 t. cbv zeta. apply combine_smooth; lia. Qed.

(** the power of a basis keeps the knots for positive exponents, loses inner
    ones for exponent 0 *)
Lemma pow_knots : forall b n t, (1 <= n)%nat ->
  (In t (knots (basis_pow b n)) <-> In t (knots b)).
Proof. intros b n t H. unfold basis_pow. rewrite combine_in by nia. tauto. Qed.
Lemma pow_knots_refuted : exists b t, In t (knots b) /\ ~ In t (knots (basis_pow b 0)).
Proof.
  exists (mkB [0; 0; 0; 1; 2; 2; 2] 2), 1. split; [simpl; tauto|].
  rewrite in_cnt. unfold basis_pow. rewrite combine_cnt.
  assert (L : lifted (mkB [0; 0; 0; 1; 2; 2; 2] 2) (0 * 2) 1 = Some (-1)%Z).
  { unfold lifted, occurrences. simpl.
    destruct (Req_EM_T 0 1); [lra|]. destruct (Req_EM_T 1 1); [|lra]. destruct (Req_EM_T 2 1); [lra|]. reflexivity. }
  simpl degree. rewrite L. simpl. lia.
Qed.

Lemma pow_zero_refuted : exists s x, clamped_on (sbasis s) 0 1 /\ sized s /\ 0 <= x <= 1 /\
  exists r, pow_spline code_tol s 0 = Some r /\ call r x <> call s x ^ 0.
Proof.
  exists lline, (1/2). split; [apply lbasis_clamped|]. split; [reflexivity|]. split; [lra|].
  exists lline. split; [reflexivity|]. unfold lline. rewrite line_call by lra. simpl. lra.
Qed.
