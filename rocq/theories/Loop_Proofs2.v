(** Sampled trajectories and the bookkeeping of one pass. *)
From Coq Require Import Reals QArith Qreals ZArith Lra Lia List Arith.
From Coq Require Import Qround.
From Coq Require Lqa.
From Verif Require Import Spline_Model Spline_Spec Spline_Proofs Spline_Proofs2 Spline_Proofs3 Blossom Splop_Spec Splop_Proofs2
  Concat_Model Concat_Proofs Vehicle_Model Vehicle_Spec Vehicle_Proofs Wheel_Proofs Lift_Model Lift_Spec Lift_Proofs Lift_Proofs2 Lift_Proofs4
  Loop_Model Loop_Spec Loop_Proofs.
From Verif Require Grid_Model Timing_Model Timing_Spec Timing_Proofs Timing_Proofs2.
Import ListNotations.
Local Open Scope R_scope.

(** ** values of the stored signals *)
Lemma scale_mult : forall b T x r, 0 < T -> mult_le b (x / T) r -> mult_le (scale_basis b T 0) x r.
Proof.
  intros b T x r HT M i Hi [A B]. unfold scale_basis in Hi; cbn [knots] in Hi. rewrite map_length in Hi.
  assert (K : forall j, (j < length (knots b))%nat -> nth j (knots (scale_basis b T 0)) 0 = nth j (knots b) 0 * T + 0).
  { intros j Hj. exact (scale_kn b T 0 j Hj). }
  rewrite K in A by lia. rewrite K in B by lia.
  apply (M i Hi). split; [rewrite <- A|rewrite <- B]; field; lra.
Qed.

Lemma stored_value : forall s T o x, on_unit s -> degree (sbasis s) = 3%nat -> (o <= 2)%nat ->
  (forall t, 0 < t < 1 -> mult_le (sbasis s) t 1) -> 0 < T -> 0 <= x <= T ->
  splev (derivative (scale s T 0) o) x = call (derivative s o) (x / T) / T ^ o.
Proof.
  intros s T o x [C Z] D O M HT I.
  assert (WF := proj1 C).
  rewrite scale_deriv by (auto; lia).
  destruct (deriv_unit s o (conj C Z) ltac:(lia)) as [C1 Z1].
  destruct (deriv_inv o s ltac:(lia) WF Z) as (B1 & B2 & B3 & _ & _ & B4).
  rewrite (splev_call _ (0 * T + 0) (1 * T + 0)).
  - rewrite mul_num_call. replace x with ((x / T) * T + 0) at 1 by (field; lra). rewrite scale_call by exact HT.
    unfold Rdiv. ring.
  - apply (scale_clamped _ 0 1 T 0 HT C1).
  - change (sized (mul_num (scale (derivative s o) T 0) (/ T ^ o))).
    unfold sized, mul_num; cbn [coeffs sbasis]. rewrite map_length. apply (scale_sized _ T 0 Z1).
  - lra.
  - intros J. change (sbasis (mul_num (scale (derivative s o) T 0) (/ T ^ o))) with (scale_basis (sbasis (derivative s o)) T 0).
    change (degree (scale_basis (sbasis (derivative s o)) T 0)) with (degree (sbasis (derivative s o))).
    apply scale_mult; [exact HT|].
    assert (U : 0 < x / T < 1).
    { split; apply (Rmult_lt_reg_r T); try exact HT; replace (x / T * T) with x by (field; lra); lra. }
    apply (mult_le_weaken _ _ 1); [rewrite B3; lia|apply B1|].
    apply B4, M, U.
Qed.

(** ** rationals and reals *)
Lemma Q2R_inj : forall z, Q2R (inject_Z z) = IZR z.
Proof. intros z. unfold Q2R, inject_Z. cbn. field. Qed.
Lemma Q2R_nat : forall j q, Q2R (inject_Z (Z.of_nat j) * q) = INR j * Q2R q.
Proof. intros. rewrite Q2R_mult, Q2R_inj, <- INR_IZR_INZ. reflexivity. Qed.
Lemma Q2R_pos : forall q, (0 < q)%Q -> 0 < Q2R q.
Proof. intros q H. apply Qlt_Rlt in H. rewrite RMicromega.Q2R_0 in H. exact H. Qed.
Lemma Q2R_nonneg : forall q, (0 <= q)%Q -> 0 <= Q2R q.
Proof. intros q H. apply Qle_Rle in H. rewrite RMicromega.Q2R_0 in H. exact H. Qed.

Lemma rel_bounds : forall g m t s, steady g m -> (0 <= rel g t s)%Q /\ (rel g t s + upd g <= horizon g)%Q.
Proof.
  intros g m t s (A & B & C & D & E). unfold rel.
  destruct (Timing_Proofs2.rel_range (knot_time g) (t - s) D) as [F G]. split; [exact F|]. Lqa.lra.
Qed.
Lemma upd_pos : forall g m, steady g m -> (0 < upd g)%Q.
Proof.
  intros g m (A & B & C & _). rewrite C.
  assert (P : (0 < inject_Z (Z.of_nat m))%Q) by (apply Timing_Proofs2.zq_pos; lia).
  apply Qmult_lt_0_compat; assumption.
Qed.
Lemma horizon_pos : forall g m, steady g m -> 0 < Q2R (horizon g).
Proof.
  intros g m S. pose proof (upd_pos g m S) as U. destruct S as (A & B & C & D & E). apply Q2R_pos. Lqa.lra.
Qed.
Lemma upd_real : forall g m, steady g m -> Q2R (upd g) = INR m * Q2R (ts g).
Proof. intros g m (A & B & C & _). rewrite (Qeq_eqR _ _ C). apply Q2R_nat. Qed.

(** ** the trajectories that store writes *)
Lemma axis_nth : forall h r t n j, (0 < t)%Q -> (1 <= n)%nat -> (inject_Z (Z.of_nat n) * t <= h - r)%Q -> (j <= n)%nat ->
  (n < List.length (Timing_Model.time_axis h r t))%nat /\
  (nth j (Timing_Model.time_axis h r t) 0 == r + inject_Z (Z.of_nat j) * t)%Q.
Proof.
  intros h r t n j T N L J.
  rewrite Timing_Proofs2.axis_length.
  assert (M : (Z.of_nat n <= Timing_Model.n_samp (h - r) t)%Z).
  { rewrite <- (Timing_Proofs.n_samp_whole (inject_Z (Z.of_nat n) * t) t (Z.of_nat n) T ltac:(reflexivity)).
    apply Timing_Proofs.n_samp_mono; assumption. }
  unfold Timing_Model.time_axis, Timing_Model.store_count.
  set (q := Timing_Model.n_samp (h - r) t) in *.
  split; [lia|].
  replace (q + 1 - 1)%Z with q by lia.
  destruct (Z.to_nat (q + 1)) as [|[|k]] eqn:K; try lia.
  unfold Timing_Model.linspace.
  rewrite Timing_Proofs.nth_map_seq by lia. rewrite Nat.add_0_l.
  assert (QK : (Z.of_nat (S (S k)) - 1 = q)%Z) by lia. rewrite QK.
  assert (P : (0 < inject_Z q)%Q) by (apply Timing_Proofs2.zq_pos; lia).
  field. intros F. Lqa.lra.
Qed.

Lemma nth_map_in : forall {A B} (f : A -> B) l j d e, (j < length l)%nat -> nth j (map f l) d = f (nth j l e).
Proof. intros A B f l j d e H. rewrite (nth_indep _ d (f e)) by (rewrite map_length; exact H). apply map_nth. Qed.

(** what column j of a trajectory planned at time t contains *)
Definition planned (g : settings) (a : answer) (t : Q) (r : Q) (j : nat) (c : column) : Prop :=
  (c_time c == t + inject_Z (Z.of_nat j) * ts g)%Q /\
  c_state c = map (fun i => course g a r 0 i (INR j * Q2R (ts g))) (seq 0 (dim g)) /\
  c_input c = map (fun i => course g a r 1 i (INR j * Q2R (ts g))) (seq 0 (dim g)) /\
  c_dinput c = map (fun i => course g a r 2 i (INR j * Q2R (ts g))) (seq 0 (dim g)).

Lemma store_ok : forall g m a t s, steady g m -> proper_answer g a ->
  exists p, store g a t s = Some p /\ (m < length p)%nat /\
    forall j, (j <= m)%nat -> planned g a t (rel g t s) j (nth j p no_column).
Proof.
  intros g m a t s ST [PA _]. pose proof (horizon_pos g m ST) as HT. pose proof (rel_bounds g m t s ST) as [R0 R1].
  pose proof ST as (A & B & C & D & E).
  unfold store, store_splines, store_insert. cbn [concat_splines concat_loop].
  set (axis := Timing_Model.time_axis (horizon g) (rel g t s) (ts g)).
  assert (AX : forall j, (j <= m)%nat -> (m < List.length axis)%nat /\ (nth j axis 0 == rel g t s + inject_Z (Z.of_nat j) * ts g)%Q).
  { intros j J. apply axis_nth; auto. rewrite <- C. Lqa.lra. }
  eexists. split; [reflexivity|]. rewrite map_length. split; [apply (AX 0%nat); lia|].
  intros j J. destruct (AX j J) as [L V]. destruct (AX 0%nat ltac:(lia)) as [_ V0].
  assert (H0 : (hd 0 axis == rel g t s)%Q).
  { replace (hd 0%Q axis) with (nth 0 axis 0%Q) by (destruct axis; reflexivity). rewrite V0. change (inject_Z (Z.of_nat 0)) with 0%Q. ring. }
  rewrite (nth_map_in _ axis j no_column 0%Q) by lia. unfold planned, signals_at. cbn [c_time c_state c_input c_dinput].
  assert (VR : Q2R (nth j axis 0%Q) = Q2R (rel g t s) + INR j * Q2R (ts g)).
  { rewrite (Qeq_eqR _ _ V), Q2R_plus, Q2R_nat. reflexivity. }
  assert (XR : 0 <= Q2R (rel g t s) + INR j * Q2R (ts g) <= Q2R (horizon g)).
  { apply Q2R_nonneg in R0. apply Qle_Rle in R1. rewrite Q2R_plus, (upd_real g m ST) in R1.
    pose proof (Q2R_pos _ A) as PT. pose proof (pos_INR j). apply le_INR in J.
    assert (INR j * Q2R (ts g) <= INR m * Q2R (ts g)) by (apply Rmult_le_compat_r; lra).
    assert (0 <= INR j * Q2R (ts g)) by (apply Rmult_le_pos; lra). lra. }
  rewrite !map_map, VR.
  assert (SV : forall o i, (o <= 2)%nat -> (i < dim g)%nat ->
     splev (derivative (scale (path a i) (Q2R (horizon g)) 0) o) (Q2R (rel g t s) + INR j * Q2R (ts g)) =
     course g a (rel g t s) o i (INR j * Q2R (ts g))).
  { intros o i Ho Hi. destruct (PA i Hi) as (P1 & P2 & P3). unfold course. apply stored_value; auto. }
  split; [|split; [|split]].
  - rewrite V, H0. Lqa.lra.
  - apply map_ext_in. intros i Hi. apply in_seq in Hi. apply (SV 0%nat i); lia.
  - apply map_ext_in. intros i Hi. apply in_seq in Hi. apply (SV 1%nat i); lia.
  - apply map_ext_in. intros i Hi. apply in_seq in Hi. apply (SV 2%nat i); lia.
Qed.

(** ** the pieces of a pass *)
Lemma rel_phase : forall g t s k, (t == inject_Z (Z.of_nat k) * upd g)%Q -> (s == 0)%Q -> (rel g t s == phase g k)%Q.
Proof.
  intros g t s k E Z. unfold rel, phase, Timing_Model.rel_time, Timing_Model.pmod.
  assert (D : (t - s == inject_Z (Z.of_nat k) * upd g)%Q) by (rewrite E, Z; ring).
  assert (R : (Timing_Model.round6 (t - s) == Timing_Model.round6 (inject_Z (Z.of_nat k) * upd g))%Q).
  { apply Qle_antisym; apply Timing_Proofs.round6_mono; rewrite D; apply Qle_refl. }
  assert (F : Qfloor (Timing_Model.round6 (t - s) / knot_time g) =
              Qfloor (Timing_Model.round6 (inject_Z (Z.of_nat k) * upd g) / knot_time g)).
  { apply Qfloor_comp. rewrite R. reflexivity. }
  rewrite F, R. reflexivity.
Qed.
Lemma course_rel : forall g a r r' o i t, (r == r')%Q -> course g a r o i t = course g a r' o i t.
Proof. intros g a r r' o i t E. unfold course. rewrite (Qeq_eqR _ _ E). reflexivity. Qed.

Lemma shortened_full : forall t u d, (0 < t)%Q -> (d == u)%Q -> Timing_Model.shortened t u d = u.
Proof.
  intros t u d T E. unfold Timing_Model.shortened.
  assert (R : (Grid_Model.round4 (u - d) == 0)%Q).
  { unfold Grid_Model.round4.
    assert (Z : Grid_Model.py_round ((u - d) * 10000) = 0%Z).
    { assert (Z0 : ((u - d) * 10000 == inject_Z 0)%Q) by (rewrite E; change (inject_Z 0) with 0%Q; ring).
      apply Z.le_antisymm; rewrite <- (Timing_Proofs.py_round_int 0) at 1; apply Timing_Proofs.py_round_mono;
        rewrite Z0; apply Qle_refl. }
    rewrite Z. reflexivity. }
  destruct (Qle_bool t (Grid_Model.round4 (u - d))) eqn:L; [|reflexivity].
  apply Qle_bool_iff in L. exfalso. Lqa.lra.
Qed.

Lemma delay_0 : forall t u prev cur r, (0 < t)%Q -> (cur == prev + u)%Q ->
  Timing_Model.delay t u prev cur r false = 0%Z.
Proof.
  intros t u prev cur r T E. unfold Timing_Model.delay.
  assert (Z : Timing_Model.pint ((cur - prev - u) / t) = 0%Z).
  { apply Timing_Proofs.pint_eq. rewrite E. change (inject_Z 0) with 0%Q. field. intros F. Lqa.lra. }
  rewrite Z. destruct (_ <? _)%Z; reflexivity.
Qed.

Lemma firstn_skip : forall {A} (d : A) l m, (m < length l)%nat ->
  cols m l = map (fun j => nth j l d) (seq 1 m).
Proof.
  intros A d l m H. destruct l as [|x l]; [cbn in H; lia|]. unfold cols. cbn [skipn].
  rewrite <- seq_shift, map_map. cbn [nth].
  cbn [length] in H. revert l H. induction m as [|m IH]; intros l H; [reflexivity|].
  destruct l as [|y l]; [cbn in H; lia|]. cbn [firstn seq map nth]. f_equal.
  rewrite <- seq_shift, map_map. cbn [nth]. apply IH. cbn in H. lia.
Qed.
Lemma combine_maps : forall {A B C} (f : A -> B) (g : A -> C) l,
  combine (map f l) (map g l) = map (fun x => (f x, g x)) l.
Proof. intros. induction l as [|x l IH]; [reflexivity|]. cbn. rewrite IH. reflexivity. Qed.

Lemma integrate_length : forall h n s us, length (integrate h n s us) = S n.
Proof. intros h n. induction n as [|n IH]; intros s us; [reflexivity|]. cbn [integrate length]. rewrite IH. reflexivity. Qed.

(** one step of the trapezoid rule *)
Definition trapezoid (h : R) (s u v : list R) : list R := vadd s (vscale (h / 2) (vadd u v)).

Lemma integrate_step : forall h n s us j, (n < length us)%nat -> (j < n)%nat ->
  nth (S j) (integrate h n s us) [] = trapezoid h (nth j (integrate h n s us) []) (nth j us []) (nth (S j) us []).
Proof.
  intros h n. induction n as [|n IH]; intros s us j L J; [lia|].
  destruct us as [|u us]; [cbn in L; lia|]. destruct us as [|v us]; [cbn in L; lia|].
  cbn [integrate hd]. destruct j as [|j].
  - cbn [nth]. destruct n; reflexivity.
  - change (nth (S (S j)) (s :: integrate h n (vadd s (vscale (h / 2) (vadd u v))) (v :: us)) [])
      with (nth (S j) (integrate h n (vadd s (vscale (h / 2) (vadd u v))) (v :: us)) []).
    rewrite IH by (cbn [length] in *; lia). reflexivity.
Qed.
Lemma integrate_0 : forall h n s us, nth 0 (integrate h n s us) [] = s.
Proof. intros h [|n] s us; reflexivity. Qed.

Lemma vadd_length : forall u v, length u = length v -> length (vadd u v) = length u.
Proof. intros u v H. unfold vadd. rewrite map_length, combine_length. lia. Qed.
Lemma trapezoid_length : forall h s u v d, length s = d -> length u = d -> length v = d -> length (trapezoid h s u v) = d.
Proof.
  intros h s u v d A B C. unfold trapezoid. rewrite vadd_length; [exact A|].
  unfold vscale. rewrite map_length, vadd_length; lia.
Qed.
Lemma vadd_nth : forall u v i, length u = length v -> nth i (vadd u v) 0 = nth i u 0 + nth i v 0.
Proof.
  induction u as [|x u IH]; intros v i L; destruct v as [|y v]; try (cbn in L; lia).
  - unfold vadd. cbn. destruct i; lra.
  - destruct i as [|i]; [reflexivity|]. cbn. apply IH. cbn in L. lia.
Qed.
Lemma vscale_nth : forall c u i, nth i (vscale c u) 0 = c * nth i u 0.
Proof. intros c u i. unfold vscale. rewrite <- (map_nth (fun x => c * x)), Rmult_0_r. reflexivity. Qed.
Lemma trapezoid_nth : forall h s u v d i, length s = d -> length u = d -> length v = d ->
  nth i (trapezoid h s u v) 0 = nth i s 0 + h / 2 * (nth i u 0 + nth i v 0).
Proof.
  intros h s u v d i A B C. unfold trapezoid. rewrite vadd_nth, vscale_nth, vadd_nth by
    (unfold vscale; rewrite ?map_length, ?vadd_length; lia). reflexivity.
Qed.

(** the state appended in column j of a plan p *)
Definition next_state (g : settings) (m : nat) (p : list column) (s0 : list R) (j : nat) : list R :=
  if ideal_update g then c_state (nth j p no_column)
  else nth j (integrate (Q2R (ts g)) m s0 (map c_input p)) [].
Definition appended (g : settings) (m : nat) (p : list column) (s0 : list R) : list column :=
  map (fun j => let c := nth j p no_column in mkC (c_time c) (next_state g m p s0 j) (c_input c) (c_dinput c)) (seq 1 m).

Lemma sim_time_full : forall g m t s, steady g m -> Timing_Model.sim_time (horizon g) (rel g t s) (upd g) = upd g.
Proof.
  intros g m t s ST. destruct (rel_bounds g m t s ST) as [A B]. unfold Timing_Model.sim_time, Grid_Model.Qltb.
  assert (L : Qle_bool (upd g) (horizon g - rel g t s) = true) by (apply Qle_bool_iff; Lqa.lra).
  rewrite L. reflexivity.
Qed.
Lemma upd_samples : forall g m, steady g m -> Timing_Model.n_samp (upd g) (ts g) = Z.of_nat m /\
  Timing_Model.pint (upd g / ts g) = Z.of_nat m.
Proof.
  intros g m (A & B & C & _). split; [apply Timing_Proofs.n_samp_whole; assumption|].
  apply Timing_Proofs.pint_eq. rewrite C. field. intros F. Lqa.lra.
Qed.
