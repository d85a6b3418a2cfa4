(** Limits, deviation from the plan, arrival. *)
From Coq Require Import String Reals QArith Qreals ZArith Lra Lia List Arith Bool.
From Coq Require Lqa.
From Verif Require Import Spline_Model Spline_Spec Spline_Proofs3 Splop_Spec Vehicle_Model Vehicle_Spec Vehicle_Proofs Vehicle_Proofs2 Quad_Proofs
  Wheel_Proofs Lift_Model Lift_Spec Lift_Proofs Lift_Proofs2 Lift_Proofs3 Lift_Proofs4
  Loop_Model Loop_Spec Loop_Proofs Loop_Proofs2 Loop_Proofs3 Loop_Proofs4 Loop_Proofs5.
From Verif Require Timing_Model Timing_Proofs Timing_Proofs2.
Import ListNotations.
Local Open Scope R_scope.

(** ** accepted answers start in the predicted state *)
Lemma own_path : forall a i, (i < 10)%nat -> own a i = path a i.
Proof. intros a i H. unfold own. apply Nat.ltb_lt in H. rewrite H. reflexivity. Qed.

Lemma rel_unit : forall g m t s, steady g m -> 0 <= Q2R (rel g t s) <= Q2R (horizon g).
Proof.
  intros g m t s ST. destruct (rel_bounds g m t s ST) as [A B]. pose proof (upd_pos g m ST) as U.
  apply Q2R_nonneg in A. apply Qle_Rle in B. rewrite Q2R_plus in B. apply Q2R_pos in U. lra.
Qed.

Lemma accepted_starts : forall g m tol limits goal vchk rv sd w a, steady g m -> (dim g <= 10)%nat -> proper_answer g a ->
  accepted g tol limits goal vchk rv sd w a -> starts_right g w a.
Proof.
  intros g m tol limits goal vchk rv sd w a ST D [PA _] (_ & SI & _) i Hi. cbv zeta in SI.
  pose proof (horizon_pos g m ST) as HT. destruct (PA i Hi) as (U & DG & _).
  assert (V : forall o r, (o <= 3)%nat -> In [SV i o; SN r] (init_cons (dim g) (p_state w) (p_input w) (Q2R (horizon g))) ->
     jets (own a) (Q2R (rel g (now w) (start_time w)) / Q2R (horizon g)) i o = r).
  { intros o r Ho Hin. apply (starts_value tol); rewrite ?own_path by lia; auto; [lia|].
    intros tup [<-|[]]. apply SI, Hin. }
  unfold course, jets in *. rewrite !Rplus_0_r. rewrite own_path in V by lia. split.
  - rewrite (V 0%nat (nth i (p_state w) 0)); [cbn; field|lia|].
    apply in_or_app. left. apply in_map_iff. exists i. split; [reflexivity|apply in_seq; lia].
  - rewrite (V 1%nat (Q2R (horizon g) * nth i (p_input w) 0)); [field; lra|lia|].
    apply in_or_app. right. apply in_map_iff. exists i. split; [reflexivity|apply in_seq; lia].
Qed.

(** ** increments over pieces *)
Lemma incr_glue : forall v a b h N, 0 <= h ->
  (forall j s t, (j < N)%nat -> INR j * h <= s -> s <= t -> t <= INR (S j) * h -> a * (t - s) <= v t - v s <= b * (t - s)) ->
  forall s t, 0 <= s -> s <= t -> t <= INR N * h -> a * (t - s) <= v t - v s <= b * (t - s).
Proof.
  intros v a b h N H. induction N as [|N IH]; intros P s t A B C.
  - cbn in C. assert (s = t) by lra. subst. split; nra.
  - assert (IH' := IH (fun j s t Hj => P j s t ltac:(lia))).
    assert (NH : 0 <= INR N * h) by (apply Rmult_le_pos; [apply pos_INR|exact H]).
    destruct (Rle_dec t (INR N * h)) as [L|L]; [apply IH'; assumption|].
    destruct (Rle_dec (INR N * h) s) as [M|M]; [apply (P N); [lia|exact M|exact B|exact C]|].
    pose proof (IH' s (INR N * h) A ltac:(lra) ltac:(lra)) as X.
    pose proof (P N (INR N * h) t ltac:(lia) ltac:(lra) ltac:(lra) C) as Y. split; nra.
Qed.

(** limits that all plans keep, per component *)
Definition within (g : settings) (as_ : list answer) (vlo vhi alo ahi : nat -> R) : Prop :=
  forall n a i t, nth_error as_ n = Some a -> (i < dim g)%nat -> 0 <= t <= Q2R (upd g) ->
    vlo i <= course g a (phase g n) 1 i t <= vhi i /\ alo i <= course g a (phase g n) 2 i t <= ahi i.

Lemma course_incr : forall g m as_ vlo vhi alo ahi n a i s t, steady g m -> Forall (proper_answer g) as_ ->
  within g as_ vlo vhi alo ahi -> nth_error as_ n = Some a -> (i < dim g)%nat -> 0 <= s -> s <= t -> t <= Q2R (upd g) ->
  alo i * (t - s) <= course g a (phase g n) 1 i t - course g a (phase g n) 1 i s <= ahi i * (t - s).
Proof.
  intros g m as_ vlo vhi alo ahi n a i s t ST FA W N Hi A B C.
  destruct (phase_bounds g m n ST) as [P1 P2].
  assert (PA : proper_answer g a) by (rewrite Forall_forall in FA; apply FA; apply nth_error_In in N; exact N).
  apply (deriv_bounds 0 (Q2R (upd g)) (course g a (phase g n) 1 i) (course g a (phase g n) 2 i)); auto.
  - intros u Hu. apply (course_deriv g m); auto.
  - intros u Hu. apply (W n a i u N Hi Hu).
Qed.

Lemma piece_of : forall h N t, 0 < h -> (1 <= N)%nat -> 0 <= t <= INR N * h -> exists j, (j < N)%nat /\ INR j * h <= t <= INR (S j) * h.
Proof.
  intros h N t H. induction N as [|N IH]; intros N1 I; [lia|].
  destruct (Rle_dec (INR N * h) t) as [L|L]; [exists N; split; [lia|lra]|].
  destruct N as [|N]; [cbn in L; lra|]. destruct (IH ltac:(lia) ltac:(lra)) as (j & A & B). exists j. split; [lia|exact B].
Qed.

Lemma nth_some : forall {A} (l : list A) n, (n < length l)%nat -> exists a, nth_error l n = Some a.
Proof. intros A l n H. destruct (nth_error l n) eqn:E; [eauto|]. apply nth_error_None in E. lia. Qed.

Theorem motion_limits : forall g m as_ p v vlo vhi alo ahi i, steady g m -> Forall (proper_answer g) as_ -> as_ <> [] ->
  within g as_ vlo vhi alo ahi -> (i < dim g)%nat ->
  (if ideal_update g then follows g as_ p v else interpolates g m as_ p v) ->
  (forall t, 0 <= t <= at_update g (length as_) -> vlo i <= v i t <= vhi i) /\
  (forall s t, 0 <= s -> s <= t -> t <= at_update g (length as_) -> alo i * (t - s) <= v i t - v i s <= ahi i * (t - s)).
Proof.
  intros g m as_ p v vlo vhi alo ahi i ST FA NE W Hi M.
  assert (K1 : (1 <= length as_)%nat) by (destruct as_; [congruence|cbn; lia]).
  pose proof (Q2R_pos _ (upd_pos g m ST)) as UP. pose proof (Q2R_pos _ (proj1 ST)) as HP.
  pose proof (upd_real g m ST) as UR. assert (M1 : (1 <= m)%nat) by apply ST. unfold at_update in *.
  destruct (ideal_update g).
  - (* follows the plan *)
    assert (V : forall n a t, nth_error as_ n = Some a -> INR n * Q2R (upd g) <= t <= INR (S n) * Q2R (upd g) ->
       v i t = course g a (phase g n) 1 i (t - INR n * Q2R (upd g))).
    { intros n a t N I. rewrite S_INR in I. destruct (M n a i (t - INR n * Q2R (upd g)) N Hi ltac:(lra)) as [_ X].
      unfold at_update in X. replace (INR n * Q2R (upd g) + (t - INR n * Q2R (upd g))) with t in X by ring. exact X. }
    split.
    + intros t I. destruct (piece_of (Q2R (upd g)) (length as_) t UP K1 I) as (n & Hn & In).
      destruct (nth_some as_ n Hn) as (a & N). rewrite (V n a t N In). rewrite S_INR in In.
      apply (W n a i (t - INR n * Q2R (upd g)) N Hi). lra.
    + intros s t A B C. apply (incr_glue (v i) (alo i) (ahi i) (Q2R (upd g)) (length as_)); try lra.
      intros n s' t' Hn A' B' C'. destruct (nth_some as_ n Hn) as (a & N).
      rewrite (V n a t' N) by (rewrite S_INR in *; lra). rewrite (V n a s' N) by (rewrite S_INR in *; lra).
      pose proof (course_incr g m as_ vlo vhi alo ahi n a i (s' - INR n * Q2R (upd g)) (t' - INR n * Q2R (upd g)) ST FA W N Hi
        ltac:(lra) ltac:(lra) ltac:(rewrite S_INR in *; lra)) as X.
      replace (t' - INR n * Q2R (upd g) - (s' - INR n * Q2R (upd g))) with (t' - s') in X by ring. exact X.
  - (* interpolates *)
    set (h := Q2R (ts g)) in *.
    assert (V : forall n a q t, nth_error as_ n = Some a -> (q < m)%nat -> INR (n * m + q) * h <= t <= INR (S (n * m + q)) * h ->
       exists c, 0 <= c <= 1 /\ c = (t - INR (n * m + q) * h) / h /\
       v i t = (1 - c) * course g a (phase g n) 1 i (INR q * h) + c * course g a (phase g n) 1 i (INR (S q) * h)).
    { intros n a q t N Q I. rewrite S_INR in I. destruct (M n a i N Hi) as [_ X]. fold h in X.
      exists ((t - INR (n * m + q) * h) / h). split; [|split; [reflexivity|]].
      - split; apply (Rmult_le_reg_r h); try exact HP; unfold Rdiv; rewrite Rmult_assoc, Rinv_l by lra; lra.
      - specialize (X q (t - INR (n * m + q) * h) Q ltac:(lra)). unfold at_update in X. rewrite UR in X.
        replace (INR n * (INR m * h) + INR q * h + (t - INR (n * m + q) * h)) with t in X by (rewrite plus_INR, mult_INR; ring).
        exact X. }
    assert (NN : forall j, (j < length as_ * m)%nat -> exists n a q, nth_error as_ n = Some a /\ (q < m)%nat /\ j = (n * m + q)%nat).
    { intros j J. assert (Hn : (j / m < length as_)%nat) by (apply Nat.div_lt_upper_bound; [lia|rewrite Nat.mul_comm; exact J]).
      destruct (nth_some as_ (j / m)%nat Hn) as (a & N). exists (j / m)%nat, a, (j mod m)%nat. split; [exact N|].
      split; [apply Nat.mod_upper_bound; lia|]. rewrite (Nat.div_mod j m) at 1 by lia. lia. }
    assert (QU : forall q, (q <= m)%nat -> 0 <= INR q * h <= Q2R (upd g)).
    { intros q Q. rewrite UR. pose proof (pos_INR q). apply le_INR in Q.
      split; [apply Rmult_le_pos; lra|apply Rmult_le_compat_r; lra]. }
    assert (TOT : INR (length as_) * Q2R (upd g) = INR (length as_ * m) * h) by (rewrite UR, mult_INR; ring).
    rewrite TOT. split.
    + intros t I. destruct (piece_of h (length as_ * m)%nat t HP ltac:(nia) I) as (j & Hj & Ij).
      destruct (NN j Hj) as (n & a & q & N & Q & ->). destruct (V n a q t N Q Ij) as (c & C & _ & E). rewrite E.
      destruct (W n a i (INR q * h) N Hi (QU q ltac:(lia))) as [W1 _].
      destruct (W n a i (INR (S q) * h) N Hi (QU (S q) ltac:(lia))) as [W2 _].
      set (x := course g a (phase g n) 1 i (INR q * h)) in *. set (y := course g a (phase g n) 1 i (INR (S q) * h)) in *. split; nra.
    + intros s t A B C. apply (incr_glue (v i) (alo i) (ahi i) h (length as_ * m)%nat); try lra.
      intros j s' t' Hj A' B' C'. destruct (NN j Hj) as (n & a & q & N & Q & ->).
      destruct (V n a q t' N Q ltac:(lra)) as (c & C1 & C2 & E). destruct (V n a q s' N Q ltac:(lra)) as (e & E1 & E2 & E').
      rewrite E, E'.
      pose proof (course_incr g m as_ vlo vhi alo ahi n a i (INR q * h) (INR (S q) * h) ST FA W N Hi
        (proj1 (QU q ltac:(lia))) ltac:(rewrite S_INR; lra) (proj2 (QU (S q) ltac:(lia)))) as X.
      rewrite S_INR in X at 1 4. replace ((INR q + 1) * h - INR q * h) with h in X by ring.
      set (x := course g a (phase g n) 1 i (INR q * h)) in *. set (y := course g a (phase g n) 1 i (INR (S q) * h)) in *.
      replace ((1 - c) * x + c * y - ((1 - e) * x + e * y)) with ((c - e) * (y - x)) by ring.
      assert (CE : c - e = (t' - s') / h) by (rewrite C2, E2; field; lra).
      assert (CP : 0 <= c - e) by (rewrite CE; apply Rmult_le_pos; [lra|left; apply Rinv_0_lt_compat; exact HP]).
      assert (TS : t' - s' = (c - e) * h) by (rewrite CE; field; lra).
      rewrite TS. split; nra.
Qed.
