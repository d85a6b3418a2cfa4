(** One update with free end time. *)
From Coq Require Import Reals QArith Qreals ZArith Lra Lia List Arith Bool.
From Coq Require Lqa.
From Verif Require Import Spline_Model Spline_Spec Splop_Spec Concat_Model Vehicle_Model Vehicle_Spec Lift_Model Lift_Spec
  Loop_Model Loop_Spec Loop_Proofs Loop_Proofs2 Loop_Proofs3 Free_Model Free_Spec.
From Verif Require Grid_Model Timing_Model Timing_Proofs Timing_Proofs2.
Import ListNotations.
Local Open Scope R_scope.

(** the fixed-time settings with the same samples and updates *)
Definition fixed (g : settings) : settings :=
  mkSet (ts g) (upd g) (2 * upd g + 1) 2 (dim g) (ideal_prediction g) (ideal_update g).

Lemma fixed_steady : forall g m, paced g m -> steady (fixed g) m.
Proof.
  intros g m (A & B & C). unfold steady. cbn [ts upd horizon fixed].
  assert (U : (0 < upd g)%Q).
  { rewrite C. apply Qmult_lt_0_compat; [apply Timing_Proofs2.zq_pos; lia|exact A]. }
  split; [exact A|]. split; [exact B|]. split; [exact C|].
  unfold knot_time. cbn [horizon intervals fixed]. set (h := (2 * upd g + 1)%Q).
  assert (H0 : (0 <= h)%Q) by (unfold h; Lqa.lra).
  destruct (Timing_Proofs2.ms_bounds h H0) as [M1 M2]. unfold Timing_Model.knot_time3.
  set (z := inject_Z (Timing_Model.pint (h * 1000))) in *.
  change (inject_Z 2) with 2%Q.
  assert (E : (z / 2 / 1000 == z / 1000 * (1 # 2))%Q) by field. rewrite E.
  set (y := (z / 1000)%Q) in *.
  assert (E2 : ((z + 1) / 1000 == y + (1 # 1000))%Q) by (unfold y; field). rewrite E2 in M2. unfold h in *. split; Lqa.lra.
Qed.

Lemma prepared_fixed : forall g w, prepared g w = prepared (fixed g) w.
Proof. intros. reflexivity. Qed.

Lemma paced_upd : forall g m, paced g m -> (0 < upd g)%Q.
Proof. intros g m P. exact (upd_pos (fixed g) m (fixed_steady g m P)). Qed.
Lemma paced_real : forall g m, paced g m -> Q2R (upd g) = INR m * Q2R (ts g).
Proof. intros g m P. exact (upd_real (fixed g) m (fixed_steady g m P)). Qed.
Lemma paced_samples : forall g m, paced g m -> Timing_Model.n_samp (upd g) (ts g) = Z.of_nat m /\
  Timing_Model.pint (upd g / ts g) = Z.of_nat m.
Proof. intros g m P. exact (upd_samples (fixed g) m (fixed_steady g m P)). Qed.

Lemma ltb_true : forall a b, (a < b)%Q -> Grid_Model.Qltb a b = true.
Proof.
  intros a b H. unfold Grid_Model.Qltb. destruct (Qle_bool b a) eqn:E; [|reflexivity].
  apply Qle_bool_iff in E. exfalso. Lqa.lra.
Qed.
Lemma ltb_false : forall a b, (b <= a)%Q -> Grid_Model.Qltb a b = false.
Proof. intros a b H. unfold Grid_Model.Qltb. apply Qle_bool_iff in H. rewrite H. reflexivity. Qed.

Lemma pint_round : forall x n, (0 <= x)%Q -> Timing_Model.pint (Timing_Model.round6 x) = n -> (inject_Z n <= x)%Q ->
  Timing_Model.pint x = n.
Proof.
  intros x n X E L. assert (A := Timing_Proofs.pint_mono _ _ L). rewrite Timing_Proofs.pint_int in A.
  destruct (Timing_Proofs.pint_bounds x X) as [B _]. pose proof (Timing_Proofs.round6_mono _ _ B) as C.
  apply Timing_Proofs.pint_mono in C. rewrite E in C.
  rewrite (Timing_Proofs.pint_eq _ _ (Timing_Proofs.round6_int (Timing_Model.pint x))) in C. lia.
Qed.

(** the samples of one update *)
Lemma count_ok : forall g m f, paced g m -> timely g f ->
  (1 <= count g m f <= m)%nat /\ (inject_Z (Z.of_nat (count g m f)) * ts g <= motion f)%Q /\
  Timing_Model.n_samp (f_time g f) (ts g) = Z.of_nat (count g m f) /\
  Timing_Model.pint (f_time g f / ts g) = Z.of_nat (count g m f) /\ skipped g f = false.
Proof.
  intros g m f P (T1 & T2). pose proof P as (A & B & C). destruct (paced_samples g m P) as [S1 S2].
  assert (SK : skipped g f = false) by (apply ltb_false; exact T1).
  unfold count, f_time, Timing_Model.sim_time.
  assert (Z0 : (motion f - 0 == motion f)%Q) by ring.
  destruct (Qlt_le_dec (motion f) (upd g)) as [L|L].
  - rewrite (ltb_true _ _ L). rewrite (ltb_false (motion f - 0) (motion f)) by Lqa.lra. specialize (T2 L).
    set (n := Timing_Model.n_samp (motion f) (ts g)) in *.
    assert (N1 : (1 <= n)%Z).
    { unfold n. rewrite <- (Timing_Proofs.n_samp_whole (ts g) (ts g) 1 A) by ring. apply Timing_Proofs.n_samp_mono; assumption. }
    rewrite Z2Nat.id by lia.
    assert (NM : (n <= Z.of_nat m)%Z) by (rewrite <- S1; apply Timing_Proofs.n_samp_mono; [exact A|Lqa.lra]).
    split; [lia|]. split; [exact T2|]. split; [reflexivity|]. split; [|exact SK].
    apply pint_round; [|reflexivity|].
    + apply Qle_shift_div_l; [exact A|Lqa.lra].
    + apply Qle_shift_div_l; [exact A|exact T2].
  - rewrite (ltb_false _ _ L). rewrite (ltb_false (motion f - 0) (upd g)) by Lqa.lra.
    split; [lia|]. split; [rewrite <- C; exact L|]. split; [exact S1|]. split; [exact S2|exact SK].
Qed.
Lemma count_long : forall g m f, long g f -> count g m f = m.
Proof. intros g m f L. unfold count. destruct (Qlt_le_dec (motion f) (upd g)) as [X|X]; [|reflexivity]. exfalso. unfold long in L. Lqa.lra. Qed.
Lemma long_timely : forall g m f, paced g m -> long g f -> timely g f.
Proof.
  intros g m f (A & B & C) L. unfold long in L. split.
  - assert (X : (1 <= inject_Z (Z.of_nat m))%Q) by (change 1%Q with (inject_Z 1); rewrite <- Zle_Qle; lia). 
    assert (Y : (1 * ts g <= inject_Z (Z.of_nat m) * ts g)%Q) by (apply Qmult_le_compat_r; [exact X|Lqa.lra]). Lqa.lra.
  - intros X. exfalso. Lqa.lra.
Qed.
Lemma timely_pos : forall g m f, paced g m -> timely g f -> 0 < Q2R (motion f).
Proof. intros g m f (A & _) (T & _). apply Q2R_pos. Lqa.lra. Qed.
Lemma long_time : forall g f, long g f -> f_time g f = upd g.
Proof.
  intros g f L. unfold long in L. unfold f_time. rewrite (ltb_false _ _ L). unfold Timing_Model.sim_time. rewrite ltb_false; [reflexivity|Lqa.lra].
Qed.

(** the planned column j *)
Definition f_planned (g : settings) (f : fanswer) (t : Q) (j : nat) (c : column) : Prop :=
  (c_time c == t + inject_Z (Z.of_nat j) * ts g)%Q /\
  c_state c = map (fun i => fcourse f 0 i (INR j * Q2R (ts g))) (seq 0 (dim g)) /\
  c_input c = map (fun i => fcourse f 1 i (INR j * Q2R (ts g))) (seq 0 (dim g)) /\
  c_dinput c = map (fun i => fcourse f 2 i (INR j * Q2R (ts g))) (seq 0 (dim g)).

Lemma samples_ok : forall g m f t, paced g m -> timely g f -> proper g f ->
  exists p, f_samples g f t = Some p /\ (count g m f < length p)%nat /\ (long g f -> m < length p)%nat /\
    forall j, (j <= count g m f)%nat -> f_planned g f t j (nth j p no_column).
Proof.
  intros g m f t P TI [PA _]. pose proof (timely_pos g m f P TI) as HT. destruct (count_ok g m f P TI) as ((C1 & C2) & C3 & _).
  pose proof P as (A & B & C).
  unfold f_samples, store_splines, store_insert. cbn [concat_splines concat_loop].
  set (axis := Timing_Model.time_axis (motion f) 0 (ts g)). set (n := count g m f) in *.
  assert (AX : forall j, (j <= n)%nat -> (n < List.length axis)%nat /\ (nth j axis 0 == 0 + inject_Z (Z.of_nat j) * ts g)%Q).
  { intros j J. apply axis_nth; auto. Lqa.lra. }
  eexists. split; [reflexivity|]. rewrite map_length. split; [apply (AX 0%nat); lia|].
  split; [intros L; pose proof (count_long g m f L) as CL; fold n in CL; rewrite <- CL; apply (AX 0%nat); lia|].
  intros j J. destruct (AX j J) as [L V]. destruct (AX 0%nat ltac:(lia)) as [_ V0].
  assert (H0 : (hd 0 axis == 0)%Q).
  { replace (hd 0%Q axis) with (nth 0 axis 0%Q) by (destruct axis; reflexivity). rewrite V0. change (inject_Z (Z.of_nat 0)) with 0%Q. ring. }
  rewrite (nth_map_in _ axis j no_column 0%Q) by lia. unfold f_planned, signals_at. cbn [c_time c_state c_input c_dinput].
  assert (VR : Q2R (nth j axis 0%Q) = INR j * Q2R (ts g)).
  { rewrite (Qeq_eqR _ _ V), Q2R_plus, Q2R_nat. unfold Q2R at 1. cbn. ring. }
  assert (XR : 0 <= INR j * Q2R (ts g) <= Q2R (motion f)).
  { apply Qle_Rle in C3. rewrite Q2R_nat in C3.
    pose proof (Q2R_pos _ A) as PT. pose proof (pos_INR j). apply le_INR in J.
    assert (INR j * Q2R (ts g) <= INR n * Q2R (ts g)) by (apply Rmult_le_compat_r; lra).
    assert (0 <= INR j * Q2R (ts g)) by (apply Rmult_le_pos; lra). lra. }
  rewrite !map_map, VR.
  assert (SV : forall o i, (o <= 2)%nat -> (i < dim g)%nat ->
     splev (derivative (scale (path (body f) i) (Q2R (motion f)) 0) o) (INR j * Q2R (ts g)) = fcourse f o i (INR j * Q2R (ts g))).
  { intros o i Ho Hi. destruct (PA i Hi) as (P1 & P2 & P3). unfold fcourse. apply stored_value; auto. }
  split; [|split; [|split]].
  - rewrite V, H0. Lqa.lra.
  - apply map_ext_in. intros i Hi. apply in_seq in Hi. apply (SV 0%nat i); lia.
  - apply map_ext_in. intros i Hi. apply in_seq in Hi. apply (SV 1%nat i); lia.
  - apply map_ext_in. intros i Hi. apply in_seq in Hi. apply (SV 2%nat i); lia.
Qed.

Lemma f_update_shape : forall g m f w w1, paced g m -> timely g f -> proper g f -> prepared g w = Some w1 ->
  let n := count g m f in
  exists p, (n < length p)%nat /\ (long g f -> m < length p)%nat /\
    (forall j, (j <= n)%nat -> f_planned g f (now w1) j (nth j p no_column)) /\
    f_update g f w = Some (mkW (now w1) (now w1) (iteration0 w1) (start_time w1)
      (Some (started w1 p ++ appended g n p (c_state (last (started w1 p) no_column)))) (Some p)
      (p_state w1) (p_input w1) (map (simulate_obstacle g (f_time g f)) (obstacles w1))).
Proof.
  intros g m f w w1 P TI PF PR n.
  destruct (samples_ok g m f (now w1) P TI PF) as (p & E & L & LL & C).
  exists p. split; [exact L|]. split; [exact LL|]. split; [exact C|].
  destruct (count_ok g m f P TI) as (_ & _ & N1 & N2 & SK). fold n in N1, N2.
  unfold f_update. rewrite PR. unfold f_deployed. rewrite SK, E. unfold f_simulated. rewrite SK.
  unfold simulate_vehicle. cbn [plan log dep_now iteration0 p_state p_input obstacles now start_time].
  rewrite N1, N2, Nat2Z.id.
  fold (started w1 p). set (l0 := started w1 p).
  assert (AP : appended g n p (c_state (last l0 no_column)) =
     if ideal_update g then cols n p
     else map (fun q => mkC (c_time (fst q)) (snd q) (c_input (fst q)) (c_dinput (fst q)))
       (combine (cols n p) (cols n (integrate (Q2R (ts g)) n (c_state (last l0 no_column)) (map c_input p))))).
  { unfold appended, next_state. fold n in L. destruct (ideal_update g).
    - rewrite (firstn_skip no_column p n L). apply map_ext. intros j. cbn zeta. destruct (nth j p no_column); reflexivity.
    - rewrite (firstn_skip no_column p n L), (firstn_skip [] (integrate _ _ _ _) n) by (rewrite integrate_length; lia).
      rewrite combine_maps, map_map. apply map_ext. intros j. reflexivity. }
  rewrite AP. destruct (ideal_update g); reflexivity.
Qed.

(** nothing happens if the motion is shorter than a sample *)
Lemma f_update_skip : forall g f w w1 p, skipped g f = true -> prepared g w = Some w1 -> plan w1 = Some p ->
  f_update g f w = Some (mkW (now w1) (now w1) (iteration0 w1) (start_time w1) (log w1) (Some p) (p_state w1) (p_input w1) (obstacles w1)).
Proof.
  intros g f w w1 p SK PR PL. unfold f_update. rewrite PR. unfold f_deployed. rewrite SK, PL. unfold f_simulated. rewrite SK. reflexivity.
Qed.
