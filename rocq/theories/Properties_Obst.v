(** Obstacle prediction and simulation (C48, C80), rotating obstacles (C81). *)
From Coq Require Import Reals List Arith Lra Lia.
From Verif Require Import Spline_Model Spline_Proofs Obst_Model Obst_Spec Obst_Proofs Obst_Proofs2 Obst_Proofs3 Obst_Proofs4.
Import ListNotations.
Local Open Scope R_scope.

(* the position spline is uniform acceleration through the measured state: s is the time since the start of the horizon, t the time of the measurement *)
Theorem C48_prediction : forall x v a t T s, 0 < T -> 0 <= s <= T ->
  call (pos_spline x v a t T) (s / T) = newton x v a (s - t).
Proof. exact pos_spline_newton. Qed.
Example C48_prediction_ex : call (pos_spline 1 2 1 1 4) (2 / 4) = 1 + 2 * (2 - 1) + 1 * (2 - 1)^2 / 2.
Proof. apply C48_prediction; lra. Qed.
Print Assumptions C48_prediction.

(* at the time of the measurement: the measured position *)
Theorem C48_value_now : forall x v a t T, 0 < T -> 0 <= t <= T ->
  call (pos_spline x v a t T) (t / T) = x.
Proof. exact pos_spline_now. Qed.
Example C48_value_now_ex : call (pos_spline 3 2 1 1 4) (1 / 4) = 3.
Proof. apply C48_value_now; lra. Qed.
Print Assumptions C48_value_now.

(* and its velocity is v + a (s - t), in particular the measured one at s = t *)
Theorem C48_velocity : forall x v a t T s, 0 < T -> 0 < s < T ->
  derivable_pt_lim (fun s => call (pos_spline x v a t T) (s / T)) s (v + a * (s - t)).
Proof. exact pos_spline_velocity. Qed.
Example C48_velocity_ex : derivable_pt_lim (fun s => call (pos_spline 3 2 1 1 4) (s / 4)) 1 (2 + 1 * (1 - 1)).
Proof. apply C48_velocity; lra. Qed.
Print Assumptions C48_velocity.

(* as long as no jump is scheduled the prediction is what the simulation does *)
Theorem C48_simulation : forall evs now s t T r, 0 < T -> 0 <= t -> t <= r <= T ->
  (forall e, In e evs -> 0 < et e) ->
  (forall e, In e evs -> ~ (now < et e <= now + (r - t))) ->
  call (pos_spline (ox s) (ov s) (oa s) t T) (r / T) = ox (sample_at evs now s (now + (r - t))).
Proof. exact prediction_simulation. Qed.
Example C48_simulation_ex : call (pos_spline 0 1 1 1 4) (2 / 4) = ox (sample_at [mkE 9 0 1 0] 5 (mkO 0 1 1) (5 + (2 - 1))).
Proof.
  apply (C48_simulation [mkE 9 0 1 0] 5 (mkO 0 1 1) 1 4 2); try lra; intros e [<-|[]]; cbn; lra.
Qed.
Print Assumptions C48_simulation.

(* a scheduled jump is not predicted *)
Theorem C48_simulation_refuted : exists evs now s t T r, 0 < T /\ 0 <= t /\ t <= r <= T /\
  (forall e, In e evs -> 0 < et e) /\
  call (pos_spline (ox s) (ov s) (oa s) t T) (r / T) <> ox (sample_at evs now s (now + (r - t))).
Proof. exact prediction_refuted. Qed.
Print Assumptions C48_simulation_refuted.

(* several segments, no acceleration: every segment continues the uniform motion *)
Theorem C48_segments_uniform : forall x v t Ts j tau, 0 <= tau <= 1 -> (j < length Ts)%nat ->
  call (nth j (pos_spline_multi x v 0 t Ts) (mkS obasis [])) tau
  = newton x v 0 (sumR (firstn j Ts) + tau * nth j Ts 0 - t).
Proof. exact multi_linear. Qed.
Example C48_segments_uniform_ex :
  call (nth 1 (pos_spline_multi 1 2 0 0 [3; 4]) (mkS obasis [])) (1/2) = newton 1 2 0 (sumR (firstn 1 [3; 4]) + 1/2 * nth 1 [3; 4] 0 - 0).
Proof. apply C48_segments_uniform; [lra|simpl; lia]. Qed.
Print Assumptions C48_segments_uniform.

(* the first segment is exact also with acceleration *)
Theorem C48_first_segment : forall x v a t T Ts tau, 0 <= tau <= 1 ->
  call (nth 0 (pos_spline_multi x v a t (T :: Ts)) (mkS obasis [])) tau
  = newton x v a (tau * T - t).
Proof. exact multi_first. Qed.
Example C48_first_segment_ex : call (nth 0 (pos_spline_multi 1 2 3 0 [3; 4]) (mkS obasis [])) 1 = newton 1 2 3 (1 * 3 - 0).
Proof. apply C48_first_segment; lra. Qed.
Print Assumptions C48_first_segment.

(* consecutive segments meet *)
Theorem C48_joints : forall Ts p0 v0 a0 j, (S j < length Ts)%nat ->
  call (nth (S j) (pos_segments p0 v0 a0 Ts) (mkS obasis [])) 0
  = call (nth j (pos_segments p0 v0 a0 Ts) (mkS obasis [])) 1.
Proof. exact segments_joint. Qed.
Example C48_joints_ex : call (nth 1 (pos_segments 1 2 3 [3; 4]) (mkS obasis [])) 0 = call (nth 0 (pos_segments 1 2 3 [3; 4]) (mkS obasis [])) 1.
Proof. apply C48_joints. simpl. lia. Qed.
Print Assumptions C48_joints.

(* with acceleration the second segment restarts with the velocity of the first one: wrong position *)
Theorem C48_segments_refuted : exists x v a t T1 T2, 0 < T1 /\ 0 < T2 /\
  call (nth 1 (pos_spline_multi x v a t [T1; T2]) (mkS obasis [])) 1
  <> newton x v a (T1 + T2 - t).
Proof. exact multi_refuted. Qed.
Print Assumptions C48_segments_refuted.

(* the values used for scipy's odeint: continuous, start in the given state, and solve the differential equation of the code between the jumps *)
Theorem C80_flow : forall evs t0 s,
  flow evs t0 s t0 = s /\
  continuity (fun t => ox (flow evs t0 s t)) /\
  continuity (fun t => ov (flow evs t0 s t)) /\
  (forall t, (forall e, In e evs -> et e <> t) ->
    derivable_pt_lim (fun t => ox (flow evs t0 s t)) t (ov (flow evs t0 s t) + incr edv evs t) /\
    derivable_pt_lim (fun t => ov (flow evs t0 s t)) t (oa (flow evs t0 s t) + incr eda evs t) /\
    derivable_pt_lim (fun t => oa (flow evs t0 s t)) t 0).
Proof. exact flow_solves. Qed.
Example C80_flow_ex : forall e, In e [mkE 2 0 1 0] -> et e <> 1.
Proof. intros e [<-|[]]. cbn. lra. Qed.
Print Assumptions C80_flow.

(* one simulated sample: uniform acceleration from the last state plus exactly the jumps scheduled in between *)
Theorem C80_sample : forall evs t0 s t, (forall e, In e evs -> 0 < et e) -> t0 <= t ->
  moved_to evs t0 s t (sample_at evs t0 s t).
Proof. exact sample_moved. Qed.
Example C80_sample_ex : sample_at [mkE 2 0 1 0] 1 (mkO 0 3 0) 4 = mkO (0 + 3 * 3 + 1 * 2) (3 + 1) 0.
Proof.
  assert (P : forall e, In e [mkE 2 0 1 0] -> 0 < et e) by (intros e [<-|[]]; cbn; lra).
  apply (moved_unique [mkE 2 0 1 0] 1 (mkO 0 3 0) 4); [apply C80_sample; [exact P|lra]|].
  replace (mkO (0 + 3 * 3 + 1 * 2) (3 + 1) 0) with
    (mkO (newton 0 3 0 (4 - 1) + newton 0 1 0 (4 - 2)) (3 + 0 * (4 - 1) + 1 + 0 * (4 - 2)) (0 + 0))
    by (unfold newton; f_equal; field).
  apply (moved_event (mkE 2 0 1 0) [] 1 (mkO 0 3 0) 4 (mkO (newton 0 3 0 (4 - 1)) (3 + 0 * (4 - 1)) 0)); [cbn; lra|].
  apply (moved_none 1 (mkO 0 3 0) 4).
Qed.
Print Assumptions C80_sample.

(* simulating in pieces is simulating at once *)
Theorem C80_compose : forall evs t0 s t1 s1 t s2, t0 <= t1 <= t ->
  moved_to evs t0 s t1 s1 -> moved_to evs t1 s1 t s2 -> moved_to evs t0 s t s2.
Proof. exact moved_compose. Qed.
Print Assumptions C80_compose.

(* the motion is determined *)
Theorem C80_determined : forall evs t0 s t s1 s2,
  moved_to evs t0 s t s1 -> moved_to evs t0 s t s2 -> s1 = s2.
Proof. exact moved_unique. Qed.
Print Assumptions C80_determined.

(* any sequence of simulation calls: all recorded samples lie on the motion from the initial state *)
Theorem C80_log : forall evs s runs, (forall e, In e evs -> 0 < et e) ->
  (forall r, In r runs -> 0 <= snd r) ->
  on_motion evs s (simulate_runs evs runs (log0 s)).
Proof. exact runs_on_motion. Qed.
Example C80_log_ex : on_motion [mkE 2 0 1 0] (mkO 0 3 0) (simulate_runs [mkE 2 0 1 0] [(2%nat, 1/2); (3%nat, 1)] (log0 (mkO 0 3 0))).
Proof.
  apply C80_log; [intros e [<-|[]]; cbn; lra|]. intros r [<-|[<-|[]]]; cbn; lra.
Qed.
Print Assumptions C80_log.

(* the jumps are the entries of the user's trajectories at times other than 0 *)
Theorem C80_jumps : forall tp tv ta e, In e (events_of tp tv ta) <->
  (exists t x, t <> 0 /\ In (t, x) tp /\ e = mkE t x 0 0) \/
  (exists t x, t <> 0 /\ In (t, x) tv /\ e = mkE t 0 x 0) \/
  (exists t x, t <> 0 /\ In (t, x) ta /\ e = mkE t 0 0 x).
Proof. exact events_exact. Qed.
Example C80_jumps_ex : In (mkE 2 0 5 0) (events_of [] [(0, 1); (2, 5)] []).
Proof. apply C80_jumps. right. left. exists 2, 5. split; [lra|]. split; [right; left; reflexivity|reflexivity]. Qed.
Print Assumptions C80_jumps.

Theorem C80_jump_times : forall tp tv ta, (forall p, In p (tp ++ tv ++ ta) -> 0 <= fst p) ->
  forall e, In e (events_of tp tv ta) -> 0 < et e.
Proof. exact events_positive. Qed.
Example C80_jump_times_ex : forall p, In p ([] ++ [(0, 1); (2, 5)] ++ []) -> 0 <= fst p.
Proof. intros p [<-|[<-|[]]]; cbn; lra. Qed.
Print Assumptions C80_jump_times.

(* an entry at time 0 standing first replaces the initial value *)
Theorem C80_value_at_zero : forall init v rest, initial_value init ((0, v) :: rest) = v.
Proof. exact initial_first. Qed.
Print Assumptions C80_value_at_zero.

(* no entry at time 0: the initial value stays *)
Theorem C80_no_value_at_zero : forall init traj, (forall p, In p traj -> fst p <> 0) -> initial_value init traj = init.
Proof. exact initial_absent. Qed.
Example C80_no_value_at_zero_ex : initial_value 7 [(1, 2); (3, 4)] = 7.
Proof. apply C80_no_value_at_zero. intros p [<-|[<-|[]]]; cbn; lra. Qed.
Print Assumptions C80_no_value_at_zero.

(* an entry at time 0 standing later: another value is taken *)
Theorem C80_value_at_zero_refuted : exists init traj v, In (0, v) traj /\
  (forall w, In (0, w) traj -> w = v) /\ initial_value init traj <> v.
Proof. exact initial_refuted. Qed.
Print Assumptions C80_value_at_zero_refuted.

(* after a measured state the simulation continues from it *)
Theorem C80_measured_state : forall evs n dt l s j, (forall e, In e evs -> 0 < et e) -> 0 <= dt ->
  (j < n)%nat ->
  let l' := simulate evs n dt (set_state s l) in
  let t0 := last (ltime l) 0 in
  moved_to evs t0 s (t0 + INR (S j) * dt) (nth (S j) (lstate l') ost0).
Proof. exact set_state_next. Qed.
Example C80_measured_state_ex :
  nth 1 (lstate (simulate [] 1 2 (set_state (mkO 5 1 0) (log0 ost0)))) ost0 = mkO 7 1 0.
Proof.
  apply (moved_unique [] 0 (mkO 5 1 0) (0 + INR 1 * 2)).
  - apply (C80_measured_state [] 1 2 (log0 ost0) (mkO 5 1 0) 0); [intros e []|lra|lia].
  - replace (mkO 7 1 0) with (mkO (newton 5 1 0 (0 + INR 1 * 2 - 0)) (1 + 0 * (0 + INR 1 * 2 - 0)) 0)
      by (unfold newton; simpl; f_equal; field).
    apply (moved_none 0 (mkO 5 1 0) (0 + INR 1 * 2)).
Qed.
Print Assumptions C80_measured_state.

(* but the recorded times are kept while the recorded states are dropped *)
Theorem C80_measured_log : forall evs n dt l s,
  length (ltime (simulate evs n dt (set_state s l))) = (length (ltime l) + n)%nat /\
  length (lstate (simulate evs n dt (set_state s l))) = (1 + n)%nat.
Proof. exact set_state_lengths. Qed.
Print Assumptions C80_measured_log.

(* so times and states no longer line up *)
Theorem C80_measured_log_refuted : exists evs n dt l s,
  length (ltime l) = length (lstate l) /\
  length (ltime (simulate evs n dt (set_state s l))) <>
  length (lstate (simulate evs n dt (set_state s l))).
Proof. exact set_state_lengths_refuted. Qed.
Print Assumptions C80_measured_log_refuted.

(* orientation: constant angular velocity *)
Theorem C80_orientation : forall n dt w th k, (k <= n)%nat ->
  length (rotate n dt w [th]) = S n /\ nth k (rotate n dt w [th]) 0 = th + w * (INR k * dt).
Proof. exact rotate_sample. Qed.
Example C80_orientation_ex : nth 2 (rotate 3 (1/2) 4 [1]) 0 = 1 + 4 * (INR 2 * (1/2)).
Proof. apply C80_orientation. lia. Qed.
Print Assumptions C80_orientation.

(* the rational splines always describe a rotation (no scaling), with positive weight *)
Theorem C81_rigid : forall theta omega t T tau, 0 < T -> 0 <= tau <= 1 ->
  let '(c, s, w) := rotation theta omega t T tau in 0 < w /\ c ^ 2 + s ^ 2 = w ^ 2.
Proof. exact rot_rigid. Qed.
Example C81_rigid_ex : let '(c, s, w) := rotation 1 (-7) (1/4) 3 (2/3) in 0 < w /\ c^2 + s^2 = w^2.
Proof. apply C81_rigid; lra. Qed.
Print Assumptions C81_rigid.

(* over an angle less than an eighth of a turn off the physical angle, exact at all multiples of an eighth of a turn since the start of the horizon *)
Theorem C81_angle : forall theta omega t T tau, omega <> 0 -> 0 < T -> 0 <= tau <= 1 ->
  exists c s w phi, rotation theta omega t T tau = (c, s, w) /\ 0 < w /\
    c = w * cos phi /\ s = w * sin phi /\
    Rabs (phi - (theta + omega * (tau * T - t))) <= PI / 4 /\
    (forall j : nat, tau * T = INR j * (turn_time omega / 8) -> phi = theta + omega * (tau * T - t)).
Proof. exact rot_angle. Qed.
Example C81_angle_ex : -7 <> 0 /\ 0 < 3 /\ 0 <= 2/3 <= 1.
Proof. lra. Qed.
Print Assumptions C81_angle.

(* the corner used in the collision constraint is the obstacle position plus the corner turned over that angle *)
Theorem C81_corner : forall theta omega t T tau px py cx cy, omega <> 0 -> 0 < T -> 0 <= tau <= 1 ->
  exists phi, Rabs (phi - (theta + omega * (tau * T - t))) <= PI / 4 /\
  let '(c, s, w) := rotation theta omega t T tau in
  0 < w /\ ((px * w + cx * c - cy * s) / w, (py * w + cx * s + cy * c) / w)
           = (px + fst (turned phi (cx, cy)), py + snd (turned phi (cx, cy))).
Proof. exact rot_corner. Qed.
Example C81_corner_ex : exists phi, Rabs (phi - (1 + (-7) * (2/3 * 3 - 1/4))) <= PI / 4.
Proof. destruct (C81_corner 1 (-7) (1/4) 3 (2/3) 0 0 1 0) as (phi & H & _); try lra. exists phi. exact H. Qed.
Print Assumptions C81_corner.

(* measured at the start of the horizon: exact there *)
Theorem C81_start : forall theta omega T, omega <> 0 -> 0 < T ->
  exists w, 0 < w /\ rotation theta omega 0 T 0 = (w * cos theta, w * sin theta, w).
Proof. exact rot_start. Qed.
Example C81_start_ex : exists w, 0 < w /\ rotation 1 (-7) 0 3 0 = (w * cos 1, w * sin 1, w).
Proof. apply C81_start; lra. Qed.
Print Assumptions C81_start.

(* measured later: the spline does not have the measured angle at the moment of the measurement *)
Theorem C81_measured_refuted : exists theta omega t T, omega <> 0 /\ 0 < t < T /\
  let '(c, s, w) := rotation theta omega t T (t / T) in
  ~ (c = w * cos theta /\ s = w * sin theta).
Proof. exact rot_measured_refuted. Qed.
Print Assumptions C81_measured_refuted.
