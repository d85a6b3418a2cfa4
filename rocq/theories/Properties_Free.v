(** The closed loop of a simulation with free end time (C119-C127). *)
From Coq Require Import String Reals QArith Qreals ZArith Lra Lia List Arith Bool.
From Verif Require Import Spline_Model Spline_Spec Splop_Spec Vehicle_Model Vehicle_Spec Vehicle_Proofs Lift_Model Lift_Spec Lift_Proofs Lift_Proofs2
  Loop_Model Loop_Spec Lift_Examples2 Loop_Examples2
  Free_Model Free_Spec Free_Proofs5 Free_Proofs6 Free_Proofs7 Free_Proofs8 Free_Examples.
From Verif Require Geom_Spec Geom_Proofs Obst_Model Obst_Spec Lift_Proofs3.
Import ListNotations.
Local Open Scope R_scope.
Local Notation length := List.length.

(* whatever answers the solver gives that satisfy the constraints of their problems: no update raises and the log records one motion, defined and differentiable at all times; every problem sees the obstacles where they are *)
Theorem C119_motion : forall g m nd tol limits goal vchk rv sd s0 i0 obs fs f, paced g m -> consistent g -> (dim g <= 10)%nat ->
  length s0 = dim g -> length i0 = dim g -> legs g fs f ->
  all_found (f_accepted g nd tol limits goal vchk rv sd) g (fs ++ [f]) (world0 s0 i0 obs) ->
  (exists p v, f_moves g m fs f s0 i0 obs p v) /\
  (exists w, after g fs f (world0 s0 i0 obs) = Some w /\
     (now w == inject_Z (Z.of_nat (length fs)) * upd g)%Q /\ (start_time w == 0)%Q) /\
  (forall n f', nth_error (fs ++ [f]) n = Some f' -> exists w1, f_accepted g nd tol limits goal vchk rv sd w1 f' /\
     obstacles w1 = map (obstacle_after g n) obs).
Proof. exact free_moves. Qed.
Example C119_motion_ex : exists p v, f_moves g1 5 [fa 0 4] (fa (5/8) (3#2)) [0; 0] [1/4; 0] [o0] p v.
Proof.
  apply (C119_motion g1 5 true 0 (holonomic_constraints "norm_inf" no_bounds) [1; 0] [(0, 0)] (1/2) (1/10)); auto; [exact g1_paced|reflexivity|cbn; lia|exact legs1|exact found_long]. Qed.
Print Assumptions C119_motion.

(* at all times the velocity is within its limits and changes no faster than the acceleration limits allow *)
Theorem C120_limits : forall g m nd tol b goal vchk rv sd s0 i0 obs fs f p v, paced g m -> consistent g -> 0 <= tol -> dim g = 2%nat ->
  length s0 = dim g -> length i0 = dim g -> legs g fs f ->
  all_found (f_accepted g nd tol (holonomic_constraints "norm_inf" b) goal vchk rv sd) g (fs ++ [f]) (world0 s0 i0 obs) ->
  f_moves g m fs f s0 i0 obs p v ->
  let L := holonomic_limits b in let E := end_time g m fs f in
  (forall t, 0 <= t <= E -> vxmin L <= v 0%nat t <= vxmax L /\ vymin L <= v 1%nat t <= vymax L) /\
  (forall s t, 0 <= s -> s <= t -> t <= E ->
     axmin L * (t - s) <= v 0%nat t - v 0%nat s <= axmax L * (t - s) /\
     aymin L * (t - s) <= v 1%nat t - v 1%nat s <= aymax L * (t - s)).
Proof. exact free_keeps_limits. Qed.
Example C120_limits_ex : exists p v, f_moves g1 5 [fa 0 4] (fa (5/8) (3#2)) [0; 0] [1/4; 0] [o0] p v /\
  forall t, 0 <= t <= 4 -> - (1/2) <= v 0%nat t <= 1/2.
Proof.
  destruct moves1 as (p & v & M). exists p, v. split; [exact M|]. intros t Ht.
  destruct (C120_limits g1 5 true 0 no_bounds [1; 0] [(0, 0)] (1/2) (1/10) [0; 0] [1/4; 0] [o0] [fa 0 4] (fa (5/8) (3#2)) p v g1_paced eq_refl (Rle_refl 0) eq_refl eq_refl eq_refl legs1 found_long M) as [K _].
  rewrite end1 in K. specialize (K t Ht). unfold holonomic_limits, no_bounds, dflt in K. cbn in K. lra. Qed.
Print Assumptions C120_limits.

(* the vehicle follows every plan until the next update or its end; with the default options up to the error of interpolating the inputs between samples *)
Theorem C121_plan : forall g m nd tol b goal vchk rv sd s0 i0 obs fs f p v, paced g m -> consistent g -> 0 <= tol -> dim g = 2%nat ->
  length s0 = dim g -> length i0 = dim g -> legs g fs f ->
  all_found (f_accepted g nd tol (holonomic_constraints "norm_inf" b) goal vchk rv sd) g (fs ++ [f]) (world0 s0 i0 obs) ->
  f_moves g m fs f s0 i0 obs p v ->
  forall n f' i t, nth_error (fs ++ [f]) n = Some f' -> (i < 2)%nat -> 0 <= t <= INR (count g m f') * Q2R (ts g) ->
  Rabs (p i (at_update g n + t) - fcourse f' 0 i t) <= slip g (holonomic_limits b) i t /\
  Rabs (v i (at_update g n + t) - fcourse f' 1 i t) <= vslip g (holonomic_limits b) i.
Proof. exact free_plan. Qed.
Example C121_plan_ex : exists p v, f_moves g1 5 [fa 0 4] (fa (5/8) (3#2)) [0; 0] [1/4; 0] [o0] p v /\
  forall t, 0 <= t <= 3/2 -> Rabs (p 0%nat (5/2 + t) - (5/8 + t / 4)) <= t / 4.
Proof.
  destruct moves1 as (p & v & M). exists p, v. split; [exact M|]. intros t Ht.
  assert (IT : 0 <= t <= INR (count g1 5 (fa (5/8) (3#2))) * Q2R (ts g1)) by (rewrite count1, h1; cbn; lra).
  destruct (C121_plan g1 5 true 0 no_bounds [1; 0] [(0, 0)] (1/2) (1/10) [0; 0] [1/4; 0] [o0] [fa 0 4] (fa (5/8) (3#2)) p v g1_paced eq_refl (Rle_refl 0) eq_refl eq_refl eq_refl legs1 found_long M
     1%nat (fa (5/8) (3#2)) 0%nat t eq_refl ltac:(lia) IT) as [K _].
  destruct (fa_course (5/8) (3#2) ltac:(unfold Q2R; cbn; lra) ltac:(unfold Q2R; cbn; lra) t) as [C _]; [unfold Q2R; cbn; lra|]. rewrite C in K.
  unfold at_update in K. rewrite upd1 in K. replace (INR 1 * (5/2) + t) with (5/2 + t) in K by (cbn; ring).
  unfold slip in K. change (ideal_update g1) with false in K. rewrite h1 in K.
  unfold holonomic_limits, no_bounds, dflt, two in K. cbn in K. lra. Qed.
Print Assumptions C121_plan.

(* the vehicle keeps its distance from every obstacle at all times, while the obstacle moves as predicted *)
Theorem C122_safe : forall g m nd tol b goal vchk rv sd s0 i0 obs fs f p v, paced g m -> consistent g -> 0 <= tol -> dim g = 2%nat ->
  length s0 = dim g -> length i0 = dim g -> legs g fs f ->
  all_found (f_accepted g nd tol (holonomic_constraints "norm_inf" b) goal vchk rv sd) g (fs ++ [f]) (world0 s0 i0 obs) ->
  f_moves g m fs f s0 i0 obs p v ->
  forall n f' k o x0 y0 t x y, nth_error (fs ++ [f]) n = Some f' -> nth_error obs k = Some o -> fresh o x0 y0 ->
  0 <= t <= INR (count g m f') * Q2R (ts g) ->
  let now := at_update g n + t in
  calm o (at_update g n) now ->
  Obst_Spec.moved_to (o_evx o) 0 x0 now x -> Obst_Spec.moved_to (o_evy o) 0 y0 now y ->
  let L := holonomic_limits b in
  let X := seen (body f') k (obstacle_after g n o) 0 (Q2R (motion f')) in
  exists e, 0 <= e <= Rmax 0 sd /\ forall P Q,
    Geom_Spec.hull (map (Geom_Spec.moved (p 0%nat now, p 1%nat now)) vchk) P ->
    Geom_Spec.hull (map (fun c => Geom_Spec.moved (Obst_Model.ox x, Obst_Model.ox y) (Geom_Spec.turned (o_theta o) c)) (o_chk o)) Q ->
    rv + o_rad o + (sd - e) - drift_max tol X (map (veh_side rv sd) vchk) - drift_max tol X (map (obs_side o) (o_chk o))
      <= sqrt (1 + drift tol X (norm_sx (SV 2 0) (SV 3 0))) * (Geom_Spec.dist P Q + slip g L 0 t + slip g L 1 t).
Proof. exact free_safe. Qed.
Example C122_safe_ex : exists p v, f_moves g1 5 [fa 0 4] (fa (5/8) (3#2)) [0; 0] [1/4; 0] [o0] p v /\
  forall t, 0 <= t <= 3/2 -> 1 - t / 2 <= Geom_Spec.dist (p 0%nat (5/2 + t), p 1%nat (5/2 + t)) ((5/2 + t) / 4, 2).
Proof.
  destruct moves1 as (p & v & M). exists p, v. split; [exact M|]. intros t Ht.
  assert (FR : fresh o0 (Obst_Model.mkO 0 (1/4) 0) (Obst_Model.mkO 2 0 0)) by (split; [reflexivity|split; [reflexivity|intros e [[]|[]]]]).
  assert (TN : at_update g1 1 + t = 5/2 + t) by (unfold at_update; rewrite upd1; cbn; ring).
  assert (IT : 0 <= t <= INR (count g1 5 (fa (5/8) (3#2))) * Q2R (ts g1)) by (rewrite count1, h1; cbn; lra).
  assert (MX := Obst_Spec.moved_none 0 (Obst_Model.mkO 0 (1/4) 0) (at_update g1 1 + t)).
  assert (MY := Obst_Spec.moved_none 0 (Obst_Model.mkO 2 0 0) (at_update g1 1 + t)).
  destruct (C122_safe g1 5 true 0 no_bounds [1; 0] [(0, 0)] (1/2) (1/10) [0; 0] [1/4; 0] [o0] [fa 0 4] (fa (5/8) (3#2)) p v g1_paced eq_refl (Rle_refl 0) eq_refl eq_refl eq_refl legs1 found_long M
     1%nat (fa (5/8) (3#2)) 0%nat o0 _ _ t _ _ eq_refl eq_refl FR IT ltac:(intros e [[]|[]]) MX MY) as (e & E & K).
  specialize (K (p 0%nat (5/2 + t), p 1%nat (5/2 + t)) ((5/2 + t) / 4, 2)).
  rewrite !Lift_Proofs3.drift_max_0, drift_0, Rplus_0_r, sqrt_1 in K. rewrite TN in K.
  assert (H1 : Geom_Spec.hull (map (Geom_Spec.moved (p 0%nat (5/2 + t), p 1%nat (5/2 + t))) [(0, 0)]) (p 0%nat (5/2 + t), p 1%nat (5/2 + t))).
  { apply Geom_Spec.hull_vertex. left. unfold Geom_Spec.moved. cbn [fst snd]. f_equal; ring. }
  assert (H2 : Geom_Spec.hull (map (fun c => Geom_Spec.moved (Obst_Model.ox (Obst_Model.mkO (Obst_Spec.newton 0 (1/4) 0 (5/2 + t - 0)) (1/4 + 0 * (5/2 + t - 0)) 0),
      Obst_Model.ox (Obst_Model.mkO (Obst_Spec.newton 2 0 0 (5/2 + t - 0)) (0 + 0 * (5/2 + t - 0)) 0)) (Geom_Spec.turned (o_theta o0) c)) (o_chk o0)) ((5/2 + t) / 4, 2)).
  { apply Geom_Spec.hull_vertex. left. unfold Geom_Spec.moved, Geom_Spec.turned, Obst_Spec.newton. cbn [fst snd Obst_Model.ox o_theta o0]. rewrite cos_0, sin_0. f_equal; field. }
  specialize (K H1 H2). unfold slip in K. change (ideal_update g1) with false in K. rewrite h1 in K.
  rewrite Rmax_right in E by lra. change (o_rad o0) with (1/2) in K.
  unfold holonomic_limits, no_bounds, dflt, two in K. cbn in K. lra. Qed.
Print Assumptions C122_safe.

(* at the end of the log the vehicle is as far from the goal as it can travel in the part of the plan that is left, and with the terminal constraints on derivatives as slow as it can brake in that time *)
Theorem C123_arrives : forall g m nd tol b goal vchk rv sd s0 i0 obs fs f p v, paced g m -> consistent g -> 0 <= tol -> dim g = 2%nat ->
  length s0 = dim g -> length i0 = dim g -> legs g fs f ->
  all_found (f_accepted g nd tol (holonomic_constraints "norm_inf" b) goal vchk rv sd) g (fs ++ [f]) (world0 s0 i0 obs) ->
  f_moves g m fs f s0 i0 obs p v ->
  let L := holonomic_limits b in let E := end_time g m fs f in let R := left_over g m f in
  let W := INR (count g m f) * Q2R (ts g) in
  0 <= R /\ ((motion f < upd g)%Q -> R < Q2R (ts g)) /\
  forall i, (i < 2)%nat ->
    two (vxmin L) (vymin L) i * R - slip g L i W <= nth i goal 0 - p i E <= two (vxmax L) (vymax L) i * R + slip g L i W /\
    (nd = false -> two (axmin L) (aymin L) i * R - vslip g L i <= - v i E <= two (axmax L) (aymax L) i * R + vslip g L i).
Proof. exact free_arrives. Qed.
Example C123_arrives_ex : exists p v, f_moves g1 5 [fa 0 4] (fa (5/8) (3#2)) [0; 0] [1/4; 0] [o0] p v /\ Rabs (1 - p 0%nat 4) <= 3/8.
Proof.
  destruct moves1 as (p & v & M). exists p, v. split; [exact M|].
  destruct (C123_arrives g1 5 true 0 no_bounds [1; 0] [(0, 0)] (1/2) (1/10) [0; 0] [1/4; 0] [o0] [fa 0 4] (fa (5/8) (3#2)) p v g1_paced eq_refl (Rle_refl 0) eq_refl eq_refl eq_refl legs1 found_long M) as (_ & _ & K).
  destruct (K 0%nat ltac:(lia)) as [[K1 K2] _]. rewrite end1 in K1, K2. unfold left_over in K1, K2. rewrite count1, h1 in K1, K2.
  replace (Q2R (motion (fa (5 / 8) (3 # 2)))) with (3/2) in K1, K2 by (unfold Q2R; cbn; field).
  unfold slip in K1, K2. change (ideal_update g1) with false in K1, K2. rewrite h1 in K1, K2.
  unfold holonomic_limits, no_bounds, dflt, two in K1, K2. cbn in K1, K2. apply Rabs_le. lra. Qed.
Print Assumptions C123_arrives.

(* an answer with a motion time shorter than a sample is not carried out; the vehicle stays as far from the goal as it can travel in that time *)
Theorem C123_skip : forall g m nd tol b goal vchk rv sd s0 i0 obs fs f2 f p v, paced g m -> consistent g -> 0 <= tol -> dim g = 2%nat ->
  length s0 = dim g -> length i0 = dim g -> Forall (long g) (fs ++ [f2]) -> Forall (proper g) (fs ++ [f2]) ->
  (0 < motion f)%Q -> (motion f < ts g)%Q -> proper g f ->
  all_found (f_accepted g nd tol (holonomic_constraints "norm_inf" b) goal vchk rv sd) g ((fs ++ [f2]) ++ [f]) (world0 s0 i0 obs) ->
  f_moves g m fs f2 s0 i0 obs p v ->
  let L := holonomic_limits b in let E := end_time g m fs f2 in let T := Q2R (motion f) in
  exists w w2, after g (fs ++ [f2]) f (world0 s0 i0 obs) = Some w /\ after g fs f2 (world0 s0 i0 obs) = Some w2 /\ log w = log w2 /\
  forall i, (i < 2)%nat ->
    two (vxmin L) (vymin L) i * T <= nth i goal 0 - p i E <= two (vxmax L) (vymax L) i * T /\
    (nd = false -> two (axmin L) (aymin L) i * T <= - v i E <= two (axmax L) (aymax L) i * T).
Proof. exact free_skip. Qed.
Example C123_skip_ex : exists p v, f_moves g1 5 [] (fa (5/16) (11#4)) [5/16; 0] [1/4; 0] [o0] p v /\ Rabs (1 - p 0%nat (5/2)) <= 1/8.
Proof.
  destruct moves2 as (p & v & M). exists p, v. split; [exact M|].
  destruct (C123_skip g1 5 true 0 no_bounds [1; 0] [(0, 0)] (1/2) (1/10) [5/16; 0] [1/4; 0] [o0] [] (fa (5/16) (11#4)) (fa (15/16) (1#4)) p v
    g1_paced eq_refl (Rle_refl 0) eq_refl eq_refl eq_refl) as (w & w2 & _ & _ & _ & K).
  - constructor; [apply Qle_bool_iff; reflexivity|constructor].
  - constructor; [apply fa_proper|constructor].
  - reflexivity.
  - reflexivity.
  - apply fa_proper.
  - exact found_short.
  - exact M.
  - destruct (K 0%nat ltac:(lia)) as [K1 _]. rewrite end2 in K1.
    replace (Q2R (motion (fa (15/16) (1#4)))) with (1/4) in K1 by (unfold Q2R; cbn; field).
    unfold holonomic_limits, no_bounds, dflt, two in K1. cbn in K1. apply Rabs_le. lra. Qed.
Print Assumptions C123_skip.

(* a plan that satisfies the terminal constraints on the derivatives is at the goal during its whole last knot interval *)
Theorem C124_idle : forall g tol goal f i, (dim g <= 10)%nat -> (0 < motion f)%Q -> proper g f ->
  stops tol (own (body f)) (term_cons false (dim g) 3 goal) -> (i < dim g)%nat ->
  forall t, last_inner (path (body f) i) * Q2R (motion f) < t <= Q2R (motion f) -> fcourse f 0 i t = nth i goal 0.
Proof. exact f_rests. Qed.
Example C124_idle_ex : forall t, 2 < t <= 4 -> fcourse halt 0 0 t = 1.
Proof.
  intros t Ht. apply (C124_idle g2 0 [1] halt 0); [cbn; lia|reflexivity|exact halt_proper|exact halt_stops|cbn; lia|].
  unfold last_inner. replace (Q2R (motion halt)) with 4 by (unfold Q2R; cbn; field). cbn. lra. Qed.
Print Assumptions C124_idle.

(* the run stops in the first update that is shorter than the update time or in which the criterion holds *)
Theorem C125_stops : forall g goal s0 i0 obs fs stol w J k, f_run g stol goal fs (world0 s0 i0 obs) 0 = Some (w, J, k) ->
  exists pre f post, fs = pre ++ f :: post /\ length pre = k /\ Forall (long g) pre /\ after g pre f (world0 s0 i0 obs) = Some w /\
    ((motion f < upd g)%Q \/ stop_criterium stol goal w = true) /\
    (forall a b c wj, pre = a ++ b :: c -> after g a b (world0 s0 i0 obs) = Some wj -> stop_criterium stol goal wj = false).
Proof. exact free_stops. Qed.
Example C125_stops_ex : exists w J k, f_run g1 (1/100) [1; 0] long_run (world0 [0; 0] [1/4; 0] [o0]) 0 = Some (w, J, k) /\
  exists pre f post, long_run = pre ++ f :: post /\ after g1 pre f (world0 [0; 0] [1/4; 0] [o0]) = Some w.
Proof.
  destruct (free_terminates g1 5 true 0 (holonomic_constraints "norm_inf" no_bounds) [1; 0] [(0, 0)] (1/2) (1/10) [0; 0] [1/4; 0] [o0] long_run
    g1_paced eq_refl ltac:(cbn; lia) eq_refl eq_refl sequel1 found_long (1/100) _ _ eq_refl) as (w & J & k & f & R & _).
  - split; [apply Qle_bool_iff; reflexivity|exact Logic.I].
  - reflexivity.
  - exists w, J, k. split; [exact R|]. destruct (C125_stops _ _ _ _ _ _ _ _ _ _ R) as (pre & f' & post & E & _ & _ & A & _).
    exists pre, f', post. split; [exact E|exact A]. Qed.
Print Assumptions C125_stops.

(* the reported objective is the time of the last sample up to less than a sample: the motion time of the last plan after the updates before it *)
Theorem C125_objective : forall g m nd tol limits goal vchk rv sd s0 i0 obs fs, paced g m -> consistent g -> (dim g <= 10)%nat ->
  length s0 = dim g -> length i0 = dim g -> sequel g fs ->
  all_found (f_accepted g nd tol limits goal vchk rv sd) g fs (world0 s0 i0 obs) ->
  forall stol w J k, f_run g stol goal fs (world0 s0 i0 obs) 0 = Some (w, J, k) ->
  exists f l, nth_error fs k = Some f /\ log w = Some l /\
    (let K := inject_Z (Z.of_nat k) in
     ((motion f < ts g)%Q -> (J == K * upd g)%Q) /\
     ((ts g <= motion f)%Q -> (motion f < upd g)%Q -> (J == K * upd g + motion f)%Q) /\
     ((upd g <= motion f)%Q -> (J == (K + 1) * upd g)%Q)) /\
    (c_time (last l no_column) <= J)%Q /\ (J < c_time (last l no_column) + ts g)%Q.
Proof. exact free_objective. Qed.
Example C125_objective_ex : exists w J k, f_run g1 (1/100) [1; 0] short_run (world0 [5/16; 0] [1/4; 0] [o0]) 0 = Some (w, J, k) /\
  exists l, log w = Some l /\ (c_time (last l no_column) <= J)%Q.
Proof.
  assert (SQ : all_found (f_accepted g1 true 0 (holonomic_constraints "norm_inf" no_bounds) [1; 0] [(0, 0)] (1/2) (1/10)) g1 short_run (world0 [5/16; 0] [1/4; 0] [o0])) by exact found_short.
  destruct (free_terminates g1 5 true 0 (holonomic_constraints "norm_inf" no_bounds) [1; 0] [(0, 0)] (1/2) (1/10) [5/16; 0] [1/4; 0] [o0] short_run
    g1_paced eq_refl ltac:(cbn; lia) eq_refl eq_refl sequel2 SQ (1/100) _ _ eq_refl) as (w & J & k & f & R & _).
  - split; [apply Qle_bool_iff; reflexivity|exact Logic.I].
  - reflexivity.
  - exists w, J, k. split; [exact R|]. destruct (C125_objective g1 5 true 0 (holonomic_constraints "norm_inf" no_bounds) [1; 0] [(0, 0)] (1/2) (1/10) [5/16; 0] [1/4; 0] [o0] short_run g1_paced eq_refl ltac:(cbn; lia) eq_refl eq_refl sequel2 SQ _ _ _ _ R) as (f' & l & _ & L & _ & T & _).
    exists l. split; [exact L|exact T]. Qed.
Print Assumptions C125_objective.

(* if every motion time is an update shorter than the one before, the run ends after at most the first motion time divided by the update time, and the objective is at most the first motion time *)
Theorem C125_terminates : forall g m nd tol limits goal vchk rv sd s0 i0 obs fs, paced g m -> consistent g -> (dim g <= 10)%nat ->
  length s0 = dim g -> length i0 = dim g -> sequel g fs ->
  all_found (f_accepted g nd tol limits goal vchk rv sd) g fs (world0 s0 i0 obs) ->
  forall stol f0 r, fs = f0 :: r -> shrinking g fs ->
  (motion f0 < inject_Z (Z.of_nat (length fs)) * upd g)%Q ->
  exists w J k f, f_run g stol goal fs (world0 s0 i0 obs) 0 = Some (w, J, k) /\ nth_error fs k = Some f /\
    (inject_Z (Z.of_nat k) * upd g + motion f <= motion f0)%Q /\ (J <= motion f0)%Q.
Proof. exact free_terminates. Qed.
Example C125_terminates_ex : exists w J k, f_run g1 (1/100) [1; 0] long_run (world0 [0; 0] [1/4; 0] [o0]) 0 = Some (w, J, k) /\ (J <= 4)%Q.
Proof.
  destruct (C125_terminates g1 5 true 0 (holonomic_constraints "norm_inf" no_bounds) [1; 0] [(0, 0)] (1/2) (1/10) [0; 0] [1/4; 0] [o0] long_run
    g1_paced eq_refl ltac:(cbn; lia) eq_refl eq_refl sequel1 found_long (1/100) _ _ eq_refl) as (w & J & k & f & R & _ & _ & B).
  - split; [apply Qle_bool_iff; reflexivity|exact Logic.I].
  - reflexivity.
  - exists w, J, k. split; [exact R|exact B]. Qed.
Print Assumptions C125_terminates.

(* an accepted answer for which the first update raises: a motion time shorter than a sample *)
Theorem C126_first_raises_refuted : exists g w f, f_accepted g true 0 (holonomic_constraints "norm_inf" no_bounds) [1; 0] [(0, 0)] (1/2) (1/10) w f /\ proper g f /\ (0 < motion f)%Q /\ w = world0 [15/16; 0] [1/4; 0] [o0] /\ f_update g f w = None.
Proof. exact first_raises. Qed.
Print Assumptions C126_first_raises_refuted.

(* a simulation time for which the signal of the state gets fewer columns than the signal of the time *)
Theorem C127_columns_refuted : exists t h : Q, (0 < h)%Q /\ (h <= t)%Q /\ copied_columns t h = 3%Z /\ state_columns t h = 2%Z.
Proof. exact misaligned. Qed.
Print Assumptions C127_columns_refuted.
