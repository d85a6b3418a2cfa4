(** Several runs with pauses between them (C136-C142). *)
From Coq Require Import String Reals QArith Qreals ZArith Lra Lia List Arith Bool.
From Verif Require Import Spline_Model Spline_Spec Splop_Spec Vehicle_Model Vehicle_Spec Vehicle_Proofs Lift_Model Lift_Spec Lift_Proofs Lift_Proofs2
  Loop_Model Loop_Spec Lift_Examples2 Loop_Examples2 Loop_Examples3
  Mission_Model Mission_Spec Mission_Proofs4 Mission_Proofs5 Mission_Proofs6 Mission_Examples Mission_Examples2 Mission_Examples3.
From Verif Require Geom_Spec Geom_Proofs Obst_Model Obst_Spec Lift_Proofs3 Grid_Model.
Import ListNotations.
Local Open Scope R_scope.
Local Notation length := List.length.

(* whatever was done before, in every run the vehicle starts where it is (after the first run: at rest), the log grows by one motion, and the run ends at the first update at which the vehicle is near its goal *)
Theorem C136_drive : forall g m stol tol limits vchk rv sd, steady g m -> consistent g -> stol < 1 -> (dim g <= 10)%nat ->
  forall legs x0 i0 obs s goal as_ s', reaches g stol tol limits vchk rv sd legs x0 i0 obs s ->
  fair g tol limits vchk rv sd (Drive goal as_) s -> drive g stol goal as_ s = Some s' ->
  exists x i k p v, placed g s x i /\ travels g m k as_ s s' x i p v /\
    (let near n := let E := at_update g n in
       sqrt (sumsq (vsub (map (fun i => p i E) (seq 0 (dim g))) goal)) <= stol /\
       sqrt (sumsq (map (fun i => v i E) (seq 0 (dim g)))) <= stol in
     near (S k) /\ forall n, (1 <= n <= k)%nat -> ~ near n) /\
    (now (world_of s') == now (world_of s) + inject_Z (Z.of_nat (S k)) * upd g
       - (if andb (Grid_Model.Qltb (ts g) 1) (2 <=? m)%nat then ts g else 0))%Q.
Proof. exact mission_drive. Qed.
Example C136_drive_ex : exists s s' x i k p v, reaches g0 (1/2) 0 lim0 V0 (1/2) (1/10) [d1; Rest 1] [0; 0] [1/4; 0] [o0] s /\ placed g0 s x i /\ travels g0 2 k [b0] s s' x i p v.
Proof.
  destruct mission0 as (s & RC & F3 & PL & SM & s' & p & v & DD & TR).
  destruct (C136_drive g0 2 (1/2) 0 lim0 V0 (1/2) (1/10) g0_steady eq_refl ltac:(lra) ltac:(cbn; lia) [d1; Rest 1] [0; 0] [1/4; 0] [o0] s [0; 0] [b0] s' RC F3 DD) as (x & i & k & p' & v' & K1 & K2 & _).
  exists s, s', x, i, k, p', v'. split; [exact RC|]. split; [exact K1|exact K2]. Qed.
Print Assumptions C136_drive.

(* a run does not raise; it ends if an update brings the vehicle near its goal *)
Theorem C136_ends : forall g m stol tol limits vchk rv sd, steady g m -> consistent g -> stol < 1 -> (dim g <= 10)%nat ->
  forall legs x0 i0 obs s goal as_, reaches g stol tol limits vchk rv sd legs x0 i0 obs s ->
  fair g tol limits vchk rv sd (Drive goal as_) s -> as_ <> [] ->
  exists x i p v, placed g s x i /\ moves g m as_ x i (obstacles (world_of s)) p v /\
  ((exists n, (1 <= n <= length as_)%nat /\ let E := at_update g n in
     sqrt (sumsq (vsub (map (fun i => p i E) (seq 0 (dim g))) goal)) <= stol /\
     sqrt (sumsq (map (fun i => v i E) (seq 0 (dim g)))) <= stol) ->
   exists s', drive g stol goal as_ s = Some s').
Proof. exact mission_ends. Qed.
Example C136_ends_ex : exists s x i p v, reaches g0 (1/2) 0 lim0 V0 (1/2) (1/10) [d1; Rest 1] [0; 0] [1/4; 0] [o0] s /\ placed g0 s x i /\ moves g0 2 [b0] x i (obstacles (world_of s)) p v.
Proof.
  destruct mission0 as (s & RC & F3 & PL & SM & s' & p & v & DD & TR).
  destruct (C136_ends g0 2 (1/2) 0 lim0 V0 (1/2) (1/10) g0_steady eq_refl ltac:(lra) ltac:(cbn; lia) [d1; Rest 1] [0; 0] [1/4; 0] [o0] s [0; 0] [b0] RC F3 ltac:(discriminate)) as (x & i & p' & v' & K1 & K2 & _).
  exists s, x, i, p', v'. split; [exact RC|]. split; [exact K1|exact K2]. Qed.
Print Assumptions C136_ends.

(* in every run the velocity is within its limits at all times and changes no faster than the acceleration limits allow *)
Theorem C137_limits : forall g m stol tol b limits vchk rv sd, steady g m -> consistent g -> dim g = 2%nat ->
  holonomic_constraints "norm_inf" b (Q2R (horizon g)) = Some limits ->
  forall legs x0 i0 obs s goal as_ s' x i k p v, 0 <= tol -> reaches g stol tol limits vchk rv sd legs x0 i0 obs s ->
  fair g tol limits vchk rv sd (Drive goal as_) s -> placed g s x i -> travels g m k as_ s s' x i p v ->
  let L := holonomic_limits b in let E := at_update g (S k) in
  (forall t, 0 <= t <= E -> vxmin L <= v 0%nat t <= vxmax L /\ vymin L <= v 1%nat t <= vymax L) /\
  (forall t u, 0 <= t -> t <= u -> u <= E ->
     axmin L * (u - t) <= v 0%nat u - v 0%nat t <= axmax L * (u - t) /\
     aymin L * (u - t) <= v 1%nat u - v 1%nat t <= aymax L * (u - t)).
Proof. exact mission_limits. Qed.
Example C137_limits_ex : exists s s' p v, reaches g0 (1/2) 0 lim0 V0 (1/2) (1/10) [d1; Rest 1] [0; 0] [1/4; 0] [o0] s /\ travels g0 2 0 [b0] s s' [1/2; 0] [0; 0] p v /\
  forall t, 0 <= t <= 1 -> - (1/2) <= v 0%nat t <= 1/2.
Proof.
  destruct mission0 as (s & RC & F3 & PL & SM & s' & p & v & DD & TR). exists s, s', p, v. split; [exact RC|]. split; [exact TR|]. intros t Ht.
  destruct (C137_limits g0 2 (1/2) 0 no_bounds lim0 V0 (1/2) (1/10) g0_steady eq_refl eq_refl eq_refl [d1; Rest 1] [0; 0] [1/4; 0] [o0] s [0; 0] [b0] s' _ _ 0%nat p v (Rle_refl 0) RC F3 PL TR) as [K _]. rewrite at0 in K. cbn [INR] in K.
  specialize (K t Ht). unfold holonomic_limits, no_bounds, dflt in K. cbn in K. lra. Qed.
Print Assumptions C137_limits.

(* a pause after a run never raises; the vehicle stands still, with the default options where it is, with ideal updates where its last plan ends; the clock advances by the pause *)
Theorem C138_rest : forall g m stol tol limits vchk rv sd, steady g m -> consistent g -> stol < 1 -> (dim g <= 10)%nat ->
  forall legs x0 i0 obs s d K, reaches g stol tol limits vchk rv sd legs x0 i0 obs s -> legs <> [] ->
  (1 <= K)%nat -> (d == inject_Z (Z.of_nat K) * ts g)%Q ->
  exists x a s' l0 l, placed g s x (repeat 0 (dim g)) /\ last_answer s = Some a /\ rest g d s = Some s' /\
    log (world_of s) = Some l0 /\ log (world_of s') = Some (l0 ++ l) /\ length l = K /\
    records g (now (world_of s)) (fun j _ => nth j (if ideal_update g then plan_end g a else x) 0) (fun _ _ => 0) l /\
    cost s' = cost s /\ (now (world_of s') == now (world_of s) + d)%Q.
Proof. exact mission_rest. Qed.
Example C138_rest_ex : exists s s' l0 l, reaches g0 (1/2) 0 lim0 V0 (1/2) (1/10) [d1; Rest 1] [0; 0] [1/4; 0] [o0] s /\ rest g0 1 s = Some s' /\ log (world_of s') = Some (l0 ++ l) /\ length l = 2%nat.
Proof.
  destruct mission0 as (s & RC & F3 & PL & SM & s' & p & v & DD & TR).
  destruct (C138_rest g0 2 (1/2) 0 lim0 V0 (1/2) (1/10) g0_steady eq_refl ltac:(lra) ltac:(cbn; lia) [d1; Rest 1] [0; 0] [1/4; 0] [o0] s 1 2 RC ltac:(discriminate) ltac:(lia) ltac:(reflexivity)) as (x & a & s2 & l0 & l & _ & _ & K1 & _ & K2 & K3 & _).
  exists s, s2, l0, l. split; [exact RC|]. split; [exact K1|]. split; [exact K2|exact K3]. Qed.
Print Assumptions C138_rest.

(* in every run the vehicle keeps its distance from every obstacle at all times; the obstacle is where its motion brings it in the time of all legs so far, although the clock of the simulator may lag behind *)
Theorem C139_safe : forall g m stol tol b limits vchk rv sd, steady g m -> consistent g -> dim g = 2%nat ->
  holonomic_constraints "norm_inf" b (Q2R (horizon g)) = Some limits ->
  forall legs x0 i0 obs s goal as_ s' x i k p v, 0 <= tol -> stol < 1 -> reaches g stol tol limits vchk rv sd legs x0 i0 obs s ->
  fair g tol limits vchk rv sd (Drive goal as_) s -> placed g s x i -> travels g m k as_ s s' x i p v ->
  forall n a j o ox0 oy0 t ox oy, (n <= k)%nat -> nth_error as_ n = Some a -> nth_error obs j = Some o -> fresh o ox0 oy0 ->
  0 <= t <= Q2R (upd g) ->
  let past := INR (samples s) * Q2R (ts g) in
  calm o (past + at_update g n) (past + at_update g n + t) ->
  Obst_Spec.moved_to (o_evx o) 0 ox0 (past + at_update g n + t) ox -> Obst_Spec.moved_to (o_evy o) 0 oy0 (past + at_update g n + t) oy ->
  let L := holonomic_limits b in
  exists o' e, nth_error (obstacles (world_of s)) j = Some o' /\ 0 <= e <= Rmax 0 sd /\
  let X := seen a j (obstacle_after g n o') (Q2R (phase g n)) (Q2R (horizon g)) in
  forall P Q,
    Geom_Spec.hull (map (Geom_Spec.moved (p 0%nat (at_update g n + t), p 1%nat (at_update g n + t))) vchk) P ->
    Geom_Spec.hull (map (fun c => Geom_Spec.moved (Obst_Model.ox ox, Obst_Model.ox oy) (Geom_Spec.turned (o_theta o) c)) (o_chk o)) Q ->
    rv + o_rad o + (sd - e) - drift_max tol X (map (veh_side rv sd) vchk) - drift_max tol X (map (obs_side o) (o_chk o))
      <= sqrt (1 + drift tol X (norm_sx (SV 2 0) (SV 3 0))) * (Geom_Spec.dist P Q + slip g L 0 t + slip g L 1 t).
Proof. exact mission_safe. Qed.
Example C139_safe_ex : exists s s' p v, reaches g0 (1/2) 0 lim0 V0 (1/2) (1/10) [d1; Rest 1] [0; 0] [1/4; 0] [o0] s /\ travels g0 2 0 [b0] s s' [1/2; 0] [0; 0] p v /\
  forall t, 0 <= t <= 1 -> 1 - t / 2 <= Geom_Spec.dist (p 0%nat t, p 1%nat t) ((3 + t) / 4, 2).
Proof.
  destruct mission0 as (s & RC & F3 & PL & SM & s' & p & v & DD & TR). exists s, s', p, v. split; [exact RC|]. split; [exact TR|]. intros t Ht.
  assert (FR : fresh o0 (Obst_Model.mkO 0 (1/4) 0) (Obst_Model.mkO 2 0 0)) by (split; [reflexivity|split; [reflexivity|intros e [[]|[]]]]).
  assert (PT : INR (samples s) * Q2R (ts g0) + at_update g0 0 + t = 3 + t) by (rewrite SM, h0, at0; cbn; field).
  assert (MX := Obst_Spec.moved_none 0 (Obst_Model.mkO 0 (1/4) 0) (INR (samples s) * Q2R (ts g0) + at_update g0 0 + t)).
  assert (MY := Obst_Spec.moved_none 0 (Obst_Model.mkO 2 0 0) (INR (samples s) * Q2R (ts g0) + at_update g0 0 + t)).
  destruct (C139_safe g0 2 (1/2) 0 no_bounds lim0 V0 (1/2) (1/10) g0_steady eq_refl eq_refl eq_refl [d1; Rest 1] [0; 0] [1/4; 0] [o0] s [0; 0] [b0] s' _ _ 0%nat p v (Rle_refl 0) ltac:(lra) RC F3 PL TR
     0%nat b0 0%nat o0 _ _ t _ _ ltac:(lia) eq_refl eq_refl FR ltac:(rewrite U0; exact Ht) ltac:(intros e [[]|[]]) MX MY) as (o' & e & _ & E & K).
  specialize (K (p 0%nat t, p 1%nat t) ((3 + t) / 4, 2)).
  rewrite !Lift_Proofs3.drift_max_0, drift_0, Rplus_0_r, sqrt_1 in K. rewrite PT in K. replace (at_update g0 0 + t) with t in K by (rewrite at0; cbn; ring).
  assert (H1 : Geom_Spec.hull (map (Geom_Spec.moved (p 0%nat t, p 1%nat t)) V0) (p 0%nat t, p 1%nat t)).
  { apply Geom_Spec.hull_vertex. left. unfold Geom_Spec.moved. cbn [fst snd]. f_equal; ring. }
  assert (H2 : Geom_Spec.hull (map (fun c => Geom_Spec.moved (Obst_Model.ox (Obst_Model.mkO (Obst_Spec.newton 0 (1/4) 0 (3 + t - 0)) (1/4 + 0 * (3 + t - 0)) 0),
      Obst_Model.ox (Obst_Model.mkO (Obst_Spec.newton 2 0 0 (3 + t - 0)) (0 + 0 * (3 + t - 0)) 0)) (Geom_Spec.turned (o_theta o0) c)) (o_chk o0)) ((3 + t) / 4, 2)).
  { apply Geom_Spec.hull_vertex. left. unfold Geom_Spec.moved, Geom_Spec.turned, Obst_Spec.newton. cbn [fst snd Obst_Model.ox o_theta o0]. rewrite cos_0, sin_0. f_equal; field. }
  specialize (K H1 H2). unfold slip in K. change (ideal_update g0) with false in K. rewrite h0 in K.
  rewrite Rmax_right in E by lra. change (o_rad o0) with (1/2) in K.
  unfold holonomic_limits, no_bounds, dflt, two in K. cbn in K. lra. Qed.
Print Assumptions C139_safe.

(* in every run the reported objective grows by at least the integral of the distance to the goal of that run (1-norm), up to the distance from the plan *)
Theorem C140_cost : forall g m stol b limits vchk rv sd, steady g m -> consistent g -> dim g = 2%nat ->
  holonomic_constraints "norm_inf" b (Q2R (horizon g)) = Some limits ->
  forall legs x0 i0 obs s goal as_ s' x i k p v, stol < 1 -> reaches g stol 0 limits vchk rv sd legs x0 i0 obs s ->
  fair g 0 limits vchk rv sd (Drive goal as_) s -> drive g stol goal as_ s = Some s' -> placed g s x i -> travels g m k as_ s s' x i p v ->
  forall I : nat -> R -> R, let E := at_update g (S k) in
  (forall i t, (i < 2)%nat -> 0 <= t <= E -> deriv_in 0 E (I i) t (Rabs (p i t - nth i goal 0))) ->
  let L := holonomic_limits b in let U := Q2R (upd g) in
  I 0%nat E - I 0%nat 0 + (I 1%nat E - I 1%nat 0) <= cost s' - cost s + INR (S k) * (U / 2 * (slip g L 0 U + slip g L 1 U)).
Proof. exact mission_cost. Qed.
Example C140_cost_ex : exists s1, drive g0 (1/2) [1; 0] [a0; a0] S0 = Some s1 /\ 0 < cost s1.
Proof. destruct leg1 as (s1 & p & v & DR & _). exists s1. split; [exact DR|exact (cost1 s1 DR)]. Qed.
Print Assumptions C140_cost.

(* the reported objective is not that of the last run: it is not reset between runs *)
Theorem C140_run_refuted : exists g m stol tol limits vchk rv sd legs x0 i0 obs s goal as_ s',
  steady g m /\ consistent g /\ reaches g stol tol limits vchk rv sd legs x0 i0 obs s /\ fair g tol limits vchk rv sd (Drive goal as_) s /\ drive g stol goal as_ s = Some s' /\ exists J, objective g as_ (reset (world_of s)) 0 = Some J /\ cost s' <> J.
Proof. exact objective_of_run. Qed.
Print Assumptions C140_run_refuted.

(* with the default options consecutive columns of the whole log are never further apart than the velocity limits allow in a sample, also between runs and pauses *)
Theorem C141_steps : forall g m stol tol b limits vchk rv sd, steady g m -> consistent g -> dim g = 2%nat ->
  holonomic_constraints "norm_inf" b (Q2R (horizon g)) = Some limits ->
  forall legs x0 i0 obs s l, 0 <= tol -> stol < 1 -> ideal_update g = false -> reaches g stol tol limits vchk rv sd legs x0 i0 obs s ->
  let L := holonomic_limits b in
  vxmin L <= 0 <= vxmax L -> vymin L <= 0 <= vymax L -> log (world_of s) = Some l ->
  forall j i, (S j < length l)%nat -> (i < 2)%nat ->
  two (vxmin L) (vymin L) i * Q2R (ts g) <= nth i (c_state (nth (S j) l no_column)) 0 - nth i (c_state (nth j l no_column)) 0 <= two (vxmax L) (vymax L) i * Q2R (ts g).
Proof. exact mission_steps. Qed.
Example C141_steps_ex : exists s l, reaches g0 (1/2) 0 lim0 V0 (1/2) (1/10) [d1; Rest 1] [0; 0] [1/4; 0] [o0] s /\ log (world_of s) = Some l /\ length l = 7%nat /\
  nth 0 (c_state (nth 5 l no_column)) 0 - nth 0 (c_state (nth 4 l no_column)) 0 <= 1/4.
Proof.
  destruct mission0 as (s & RC & F3 & PL & SM & s' & p & v & DD & TR). unfold samples in SM. destruct (log (world_of s)) as [l|] eqn:E; [|discriminate]. exists s, l. split; [exact RC|]. split; [exact E|]. split; [lia|].
  assert (VX : forall L, L = holonomic_limits no_bounds -> vxmax L = 1/2 /\ vxmin L = - (1/2) /\ vymax L = 1/2 /\ vymin L = -(1/2)).
  { intros L ->. unfold holonomic_limits, no_bounds, dflt. cbn. repeat split; lra. }
  destruct (VX _ eq_refl) as (V1 & V2 & V3 & V4).
  pose proof (C141_steps g0 2 (1/2) 0 no_bounds lim0 V0 (1/2) (1/10) g0_steady eq_refl eq_refl eq_refl [d1; Rest 1] [0; 0] [1/4; 0] [o0] s l (Rle_refl 0) ltac:(lra) eq_refl RC ltac:(lra) ltac:(lra) E 4%nat 0%nat ltac:(lia) ltac:(lia)) as K.
  unfold two in K. cbn [Nat.eqb] in K. rewrite h0, V1 in K. lra. Qed.
Print Assumptions C141_steps.

(* with ideal updates a pause takes the vehicle in one sample to where its last plan ends *)
Theorem C141_jump_refuted : exists g m stol tol b limits vchk rv sd legs x0 i0 obs s l,
  steady g m /\ consistent g /\ dim g = 2%nat /\ stol < 1 /\ 0 <= tol /\
  holonomic_constraints "norm_inf" b (Q2R (horizon g)) = Some limits /\
  reaches g stol tol limits vchk rv sd legs x0 i0 obs s /\ log (world_of s) = Some l /\
  let L := holonomic_limits b in vxmin L <= 0 <= vxmax L /\ vymin L <= 0 <= vymax L /\
  exists j, (S j < length l)%nat /\
    vxmax L * Q2R (ts g) < nth 0 (c_state (nth (S j) l no_column)) 0 - nth 0 (c_state (nth j l no_column)) 0.
Proof. exact rest_jumps. Qed.
Print Assumptions C141_jump_refuted.

(* when an update has several samples and a sample takes less than a second, the first column after a run has the time stamp of the last column of the run *)
Theorem C142_stamps : forall g m stol tol limits vchk rv sd, steady g m -> consistent g -> stol < 1 -> (dim g <= 10)%nat ->
  forall legs x0 i0 obs s goal as_ s1 l s2, reaches g stol tol limits vchk rv sd legs x0 i0 obs s ->
  fair g tol limits vchk rv sd (Drive goal as_) s -> drive g stol goal as_ s = Some s1 ->
  fair g tol limits vchk rv sd l s1 -> do_leg g stol l s1 = Some s2 -> (2 <= m)%nat -> (ts g < 1)%Q ->
  exists L c r, log (world_of s1) = Some L /\ log (world_of s2) = Some (L ++ c :: r) /\ (c_time c == c_time (last L no_column))%Q.
Proof. exact mission_stamps. Qed.
Example C142_stamps_ex : exists s1 s2 L c r, drive g0 (1/2) [1; 0] [a0; a0] S0 = Some s1 /\ rest g0 1 s1 = Some s2 /\
  log (world_of s2) = Some (L ++ c :: r) /\ (c_time c == c_time (last L no_column))%Q.
Proof.
  destruct leg2 as (s1 & s2 & DR & RS & _).
  assert (RC : reaches g0 (1/2) 0 lim0 V0 (1/2) (1/10) [] [0; 0] [1/4; 0] [o0] S0).
  { split; [reflexivity|]. split; [reflexivity|]. split; [exact Logic.I|reflexivity]. }
  destruct (C142_stamps g0 2 (1/2) 0 lim0 V0 (1/2) (1/10) g0_steady eq_refl ltac:(lra) ltac:(cbn; lia) [] [0; 0] [1/4; 0] [o0] S0 [1; 0] [a0; a0] s1 (Rest 1) s2 RC fair1 DR (fair2 s1 DR) RS ltac:(lia) ltac:(reflexivity)) as (L & c & r & _ & K1 & K2).
  exists s1, s2, L, c, r. split; [exact DR|]. split; [exact RS|]. split; [exact K1|exact K2]. Qed.
Print Assumptions C142_stamps.
