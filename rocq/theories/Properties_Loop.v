(** The closed loop of a simulation (C112-C118). *)
From Coq Require Import String Reals QArith Qreals ZArith Lra Lia List Arith Bool.
From Verif Require Import Spline_Model Spline_Spec Splop_Spec Vehicle_Model Vehicle_Spec Vehicle_Proofs Quad_Proofs Lift_Model Lift_Spec Lift_Proofs Lift_Proofs2
  Loop_Model Loop_Spec Loop_Proofs Loop_Proofs10 Loop_Proofs11 Loop_Proofs12 Lift_Examples2 Loop_Examples2 Loop_Examples3.
From Verif Require Geom_Spec Geom_Proofs Obst_Model Obst_Spec.
Import ListNotations.
Local Open Scope R_scope.
Local Notation length := List.length.

(* whatever answers the solver gives that start in the predicted state: the simulation never raises and records one motion, defined and differentiable at all times *)
Theorem C112_motion : forall g m (P : world -> answer -> Prop) s0 i0 obs as_, steady g m -> consistent g ->
  length s0 = dim g -> length i0 = dim g -> as_ <> [] ->
  (forall w a, P w a -> starts_right g w a) -> Forall (proper_answer g) as_ ->
  all_answers P g as_ (world0 s0 i0 obs) ->
  exists p v, moves g m as_ s0 i0 obs p v.
Proof. exact loop_moves. Qed.
Example C112_motion_ex : exists p v, moves g0 2 [a0; a0] [0; 0] [1/4; 0] [o0] p v.
Proof.
  apply (C112_motion g0 2 F0); auto; [exact g0_steady|reflexivity|discriminate|exact starts0|exact proper0|exact run0_fine]. Qed.
Print Assumptions C112_motion.

(* at all times the velocity is within its limits and changes no faster than the acceleration limits allow *)
Theorem C113_limits : forall g m tol b limits goal vchk rv sd s0 i0 obs as_ p v, steady g m -> consistent g -> 0 <= tol -> dim g = 2%nat ->
  length s0 = dim g -> length i0 = dim g -> as_ <> [] -> Forall (proper_answer g) as_ ->
  holonomic_constraints "norm_inf" b (Q2R (horizon g)) = Some limits ->
  all_answers (accepted g tol limits goal vchk rv sd) g as_ (world0 s0 i0 obs) ->
  moves g m as_ s0 i0 obs p v ->
  let L := holonomic_limits b in let E := at_update g (length as_) in
  (forall t, 0 <= t <= E -> vxmin L <= v 0%nat t <= vxmax L /\ vymin L <= v 1%nat t <= vymax L) /\
  (forall s t, 0 <= s -> s <= t -> t <= E ->
     axmin L * (t - s) <= v 0%nat t - v 0%nat s <= axmax L * (t - s) /\
     aymin L * (t - s) <= v 1%nat t - v 1%nat s <= aymax L * (t - s)).
Proof. exact loop_limits. Qed.
Example C113_limits_ex : exists p v, moves g0 2 [a0; a0] [0; 0] [1/4; 0] [o0] p v /\
  forall t, 0 <= t <= 2 -> - (1/2) <= v 0%nat t <= 1/2.
Proof.
  destruct moves0 as (p & v & M). exists p, v. split; [exact M|]. intros t Ht.
  destruct (C113_limits g0 2 0 no_bounds lim0 [1; 0] [(0, 0)] (1/2) (1/10) [0; 0] [1/4; 0] [o0] [a0; a0] p v g0_steady eq_refl (Rle_refl 0) eq_refl eq_refl eq_refl ltac:(discriminate) proper0 eq_refl run0 M) as [K _].
  unfold at_update in K. cbn [length INR upd g0] in K. replace (Q2R 1) with 1 in K by (unfold Q2R; cbn; field).
  specialize (K t ltac:(lra)). unfold holonomic_limits, no_bounds, dflt in K. cbn in K. lra. Qed.
Print Assumptions C113_limits.

(* the vehicle follows every plan until the next update; with the default options up to the error of interpolating the inputs between samples *)
Theorem C114_plan : forall g m tol b limits goal vchk rv sd s0 i0 obs as_ p v, steady g m -> consistent g -> 0 <= tol -> dim g = 2%nat ->
  length s0 = dim g -> length i0 = dim g -> as_ <> [] -> Forall (proper_answer g) as_ ->
  holonomic_constraints "norm_inf" b (Q2R (horizon g)) = Some limits ->
  all_answers (accepted g tol limits goal vchk rv sd) g as_ (world0 s0 i0 obs) ->
  moves g m as_ s0 i0 obs p v ->
  forall n a i t, nth_error as_ n = Some a -> (i < 2)%nat -> 0 <= t <= Q2R (upd g) ->
  Rabs (p i (at_update g n + t) - course g a (phase g n) 0 i t) <= slip g (holonomic_limits b) i t.
Proof. exact loop_plan. Qed.
Example C114_plan_ex : exists p v, moves g0 2 [a0; a0] [0; 0] [1/4; 0] [o0] p v /\
  forall t, 0 <= t <= 1 -> Rabs (p 0%nat (1 + t) - (1 + t) / 4) <= t / 4.
Proof.
  destruct moves0 as (p & v & M). exists p, v. split; [exact M|]. intros t Ht.
  assert (U : Q2R (upd g0) = 1) by (unfold Q2R; cbn; field).
  pose proof (C114_plan g0 2 0 no_bounds lim0 [1; 0] [(0, 0)] (1/2) (1/10) [0; 0] [1/4; 0] [o0] [a0; a0] p v g0_steady eq_refl (Rle_refl 0) eq_refl eq_refl eq_refl ltac:(discriminate) proper0 eq_refl run0 M
     1%nat a0 0%nat t eq_refl ltac:(lia) ltac:(rewrite U; exact Ht)) as K.
  assert (P1 : (phase g0 1 == 1)%Q) by reflexivity. rewrite (Loop_Proofs2.course_rel _ _ _ _ _ _ _ P1) in K.
  assert (O : Q2R 1 = 1) by (unfold Q2R; cbn; field).
  destruct (course0 1 t) as [C _]; [rewrite O; lra|]. rewrite C, O in K.
  unfold at_update in K. rewrite U in K. replace (INR 1 * 1 + t) with (1 + t) in K by (cbn; ring).
  unfold slip in K. cbn [ideal_update g0] in K. change (ts (mkSet (1 # 2) 1 4 2 2 false false)) with (ts g0) in K. rewrite h0 in K.
  unfold holonomic_limits, no_bounds, dflt, two in K. cbn in K. lra. Qed.
Print Assumptions C114_plan.

(* the vehicle keeps its distance from every obstacle at all times, while the obstacle moves as predicted *)
Theorem C115_safe : forall g m tol b limits goal vchk rv sd s0 i0 obs as_ p v, steady g m -> consistent g -> 0 <= tol -> dim g = 2%nat ->
  length s0 = dim g -> length i0 = dim g -> as_ <> [] -> Forall (proper_answer g) as_ ->
  holonomic_constraints "norm_inf" b (Q2R (horizon g)) = Some limits ->
  all_answers (accepted g tol limits goal vchk rv sd) g as_ (world0 s0 i0 obs) ->
  moves g m as_ s0 i0 obs p v ->
  forall n a k o x0 y0 t x y, nth_error as_ n = Some a -> nth_error obs k = Some o -> fresh o x0 y0 ->
  0 <= t <= Q2R (upd g) ->
  let now := at_update g n + t in
  calm o (at_update g n) now ->
  Obst_Spec.moved_to (o_evx o) 0 x0 now x -> Obst_Spec.moved_to (o_evy o) 0 y0 now y ->
  let L := holonomic_limits b in
  let X := seen a k (obstacle_after g n o) (Q2R (phase g n)) (Q2R (horizon g)) in
  exists e, 0 <= e <= Rmax 0 sd /\ forall P Q,
    Geom_Spec.hull (map (Geom_Spec.moved (p 0%nat now, p 1%nat now)) vchk) P ->
    Geom_Spec.hull (map (fun c => Geom_Spec.moved (Obst_Model.ox x, Obst_Model.ox y) (Geom_Spec.turned (o_theta o) c)) (o_chk o)) Q ->
    rv + o_rad o + (sd - e) - drift_max tol X (map (veh_side rv sd) vchk) - drift_max tol X (map (obs_side o) (o_chk o))
      <= sqrt (1 + drift tol X (norm_sx (SV 2 0) (SV 3 0))) * (Geom_Spec.dist P Q + slip g L 0 t + slip g L 1 t).
Proof. exact loop_safe. Qed.
Example C115_safe_ex : exists p v, moves g0 2 [a0; a0] [0; 0] [1/4; 0] [o0] p v /\
  forall t, 0 <= t <= 1 -> 1 - t / 2 <= Geom_Spec.dist (p 0%nat (1 + t), p 1%nat (1 + t)) ((1 + t) / 4, 2).
Proof.
  destruct moves0 as (p & v & M). exists p, v. split; [exact M|]. intros t Ht.
  assert (U : Q2R (upd g0) = 1) by (unfold Q2R; cbn; field).
  assert (FR : fresh o0 (Obst_Model.mkO 0 (1/4) 0) (Obst_Model.mkO 2 0 0)) by (split; [reflexivity|split; [reflexivity|intros e [[]|[]]]]).
  assert (TN : at_update g0 1 + t = 1 + t) by (unfold at_update; rewrite U; cbn; ring).
  assert (MX := Obst_Spec.moved_none 0 (Obst_Model.mkO 0 (1/4) 0) (at_update g0 1 + t)).
  assert (MY := Obst_Spec.moved_none 0 (Obst_Model.mkO 2 0 0) (at_update g0 1 + t)).
  destruct (C115_safe g0 2 0 no_bounds lim0 [1; 0] [(0, 0)] (1/2) (1/10) [0; 0] [1/4; 0] [o0] [a0; a0] p v g0_steady eq_refl (Rle_refl 0) eq_refl eq_refl eq_refl ltac:(discriminate) proper0 eq_refl run0 M
     1%nat a0 0%nat o0 _ _ t _ _ eq_refl eq_refl FR ltac:(rewrite U; exact Ht) ltac:(intros e [[]|[]]) MX MY) as (e & E & K).
  specialize (K (p 0%nat (1 + t), p 1%nat (1 + t)) ((1 + t) / 4, 2)).
  rewrite !Lift_Proofs3.drift_max_0, drift_0, Rplus_0_r, sqrt_1 in K. rewrite TN in K.
  assert (H1 : Geom_Spec.hull (map (Geom_Spec.moved (p 0%nat (1 + t), p 1%nat (1 + t))) [(0, 0)]) (p 0%nat (1 + t), p 1%nat (1 + t))).
  { apply Geom_Spec.hull_vertex. left. unfold Geom_Spec.moved. cbn [fst snd]. f_equal; ring. }
  assert (H2 : Geom_Spec.hull (map (fun c => Geom_Spec.moved (Obst_Model.ox (Obst_Model.mkO (Obst_Spec.newton 0 (1/4) 0 (1 + t - 0)) (1/4 + 0 * (1 + t - 0)) 0),
      Obst_Model.ox (Obst_Model.mkO (Obst_Spec.newton 2 0 0 (1 + t - 0)) (0 + 0 * (1 + t - 0)) 0)) (Geom_Spec.turned (o_theta o0) c)) (o_chk o0)) ((1 + t) / 4, 2)).
  { apply Geom_Spec.hull_vertex. left. unfold Geom_Spec.moved, Geom_Spec.turned, Obst_Spec.newton. cbn [fst snd Obst_Model.ox o_theta o0]. rewrite cos_0, sin_0. f_equal; field. }
  specialize (K H1 H2). unfold slip in K. cbn [ideal_update g0] in K. change (ts (mkSet (1 # 2) 1 4 2 2 false false)) with (ts g0) in K. rewrite h0 in K.
  rewrite Rmax_right in E by lra. change (o_rad o0) with (1/2) in K.
  unfold holonomic_limits, no_bounds, dflt, two in K. cbn in K. lra. Qed.
Print Assumptions C115_safe.

(* when the simulation stops, the vehicle is within the tolerance of the goal, and so is its speed of 0 *)
Theorem C116_stops : forall g m (P : world -> answer -> Prop) s0 i0 obs as_ stol goal w k, steady g m -> consistent g ->
  length s0 = dim g -> length i0 = dim g -> stol < 1 ->
  (forall w a, P w a -> starts_right g w a) -> Forall (proper_answer g) as_ ->
  all_answers P g as_ (world0 s0 i0 obs) ->
  run g stol goal as_ (world0 s0 i0 obs) = Some (w, k) ->
  let K := S k in
  exists p v l, moves g m (firstn K as_) s0 i0 obs p v /\ log w = Some l /\ recorded g p v l /\ length l = (K * m + 1)%nat /\
    let E := at_update g K in
    sqrt (sumsq (vsub (map (fun i => p i E) (seq 0 (dim g))) goal)) <= stol /\
    sqrt (sumsq (map (fun i => v i E) (seq 0 (dim g)))) <= stol.
Proof. exact loop_stops. Qed.
Example C116_stops_ex : exists p v w l, run g0 (1/2) [1; 0] [a0; a0] (world0 [0; 0] [1/4; 0] [o0]) = Some (w, 1%nat) /\
  log w = Some l /\ length l = 5%nat /\ recorded g0 p v l /\ sqrt (sumsq [p 0%nat 2 - 1; p 1%nat 2 - 0]) <= 1/2.
Proof.
  destruct run0_stops as [w R].
  destruct (C116_stops g0 2 F0 [0; 0] [1/4; 0] [o0] [a0; a0] (1/2) [1; 0] w 1 g0_steady eq_refl eq_refl eq_refl ltac:(lra) starts0 proper0 run0_fine R)
    as (p & v & l & _ & L & RC & LL & A & _).
  exists p, v, w, l. split; [exact R|]. split; [exact L|]. split; [exact LL|]. split; [exact RC|].
  unfold at_update in A. replace (INR 2 * Q2R (upd g0)) with 2 in A by (unfold Q2R; cbn; field). exact A. Qed.
Print Assumptions C116_stops.

(* the reported objective is an upper bound of the distance to the goal, integrated over the motion *)
Theorem C117_objective : forall g m b limits goal vchk rv sd s0 i0 obs as_ p v, steady g m -> consistent g -> dim g = 2%nat ->
  length s0 = dim g -> length i0 = dim g -> as_ <> [] -> Forall (proper_answer g) as_ ->
  holonomic_constraints "norm_inf" b (Q2R (horizon g)) = Some limits ->
  all_answers (accepted g 0 limits goal vchk rv sd) g as_ (world0 s0 i0 obs) ->
  moves g m as_ s0 i0 obs p v ->
  exists J, objective g as_ (world0 s0 i0 obs) 0 = Some J /\
  forall I : nat -> R -> R, let E := at_update g (length as_) in
  (forall i t, (i < 2)%nat -> 0 <= t <= E -> deriv_in 0 E (I i) t (Rabs (p i t - nth i goal 0))) ->
  let L := holonomic_limits b in let U := Q2R (upd g) in
  I 0%nat E - I 0%nat 0 + (I 1%nat E - I 1%nat 0) <= J + INR (length as_) * (U / 2 * (slip g L 0 U + slip g L 1 U)).
Proof. exact loop_objective. Qed.
Example C117_objective_ex : exists p v J, moves g0 2 [a0; a0] [0; 0] [1/4; 0] [o0] p v /\
  objective g0 [a0; a0] (world0 [0; 0] [1/4; 0] [o0]) 0 = Some J.
Proof.
  destruct moves0 as (p & v & M).
  destruct (C117_objective g0 2 no_bounds lim0 [1; 0] [(0, 0)] (1/2) (1/10) [0; 0] [1/4; 0] [o0] [a0; a0] p v g0_steady eq_refl eq_refl eq_refl eq_refl
    ltac:(discriminate) proper0 eq_refl run0 M) as (J & E & _).
  exists p, v, J. split; [exact M|exact E]. Qed.
Print Assumptions C117_objective.

(* with only one of ideal_prediction and ideal_update set, the next problem is solved from a state in which the vehicle is not *)
Theorem C118_mixed_refuted : forall b : bool, exists g m a s0 i0 w l w1,
  steady g m /\ ideal_prediction g = b /\ ideal_update g = negb b /\ proper_answer g a /\
  all_answers (starts_right g) g [a] (world0 s0 i0 []) /\
  passes g [a] (world0 s0 i0 []) = Some w /\ log w = Some l /\ prepared g w = Some w1 /\
  c_state (last l no_column) = [if b then 3 / 16 else 1 / 8] /\ p_state w1 = [if b then 1 / 8 else 3 / 16].
Proof. exact mixed_options. Qed.
Print Assumptions C118_mixed_refuted.
