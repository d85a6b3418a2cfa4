(** Trajectories over several segments (C47) and their warm start (C84). *)
From Coq Require Import Reals List Arith Lra Lia Ranalysis.
From Verif Require Import Spline_Model Spline_Spec Spline_Proofs Vehicle_Spec Splop_Spec Splop_Proofs4 Obst_Model
  End_Proofs Multi_Model Multi_Spec Multi_Proofs Multi_Proofs2.
Import ListNotations.
Local Open Scope R_scope.

(* multi-frame problem: with the connection constraints satisfied the trajectory in physical time has derivatives up to order p-1 that are continuous at every moment, joints included *)
Theorem C47_smooth : forall p m segs Ts i d t, regular_segments p m segs ->
  Forall (fun T => 0 < T) Ts -> (i < m)%nat ->
  Forall (fun v => v = 0) (connections segs Ts) ->
  0 < t < duration (component i segs Ts) ->
  ((d + 1 < p)%nat -> derivable_pt_lim (travelled (component i segs Ts) d) t
                        (travelled (component i segs Ts) (S d) t)) /\
  ((d < p)%nat -> continuity_pt (travelled (component i segs Ts) d) t).
Proof. exact multi_smooth. Qed.
Example C47_smooth_ex : continuity_pt (travelled (component 0 [seg_a; seg_b] [1; 2]) 1) 1 /\
  derivable_pt_lim (travelled (component 0 [seg_a; seg_b] [1; 2]) 0) 1 2.
Proof.
  assert (PT : Forall (fun T => 0 < T) [1; 2]) by (repeat constructor; lra).
  assert (I : 0 < 1 < duration (component 0 [seg_a; seg_b] [1; 2])) by (rewrite segs_duration; lra).
  pose proof (fun d => C47_smooth 2 1 [seg_a; seg_b] [1; 2] 0 d 1 segs_regular PT ltac:(lia) segs_connected I) as K.
  split; [apply (proj2 (K 1%nat)); lia|].
  assert (V : travelled (component 0 [seg_a; seg_b] [1; 2]) 1 1 = 2).
  { cbn [component combine map nth seg_a seg_b travelled]. destruct (Rle_dec 1 1); [|lra].
    unfold in_seconds. rewrite quad_derivative. replace (1 / 1) with 1 by field. rewrite line_call by lra. field. }
  pose proof (proj1 (K 0%nat) ltac:(lia)) as D. rewrite V in D. exact D.
Qed.
Print Assumptions C47_smooth.

(* the G-code problem, where the number of derivatives is taken from the first spline *)
Theorem C47_gcode : forall p m segs Ts i d t, regular_segments p m segs -> (1 <= m)%nat ->
  Forall (fun T => 0 < T) Ts -> (i < m)%nat ->
  Forall (fun v => v = 0) (gcode_connections (gcode_continuity segs) segs Ts) ->
  0 < t < duration (component i segs Ts) ->
  ((d + 1 < p)%nat -> derivable_pt_lim (travelled (component i segs Ts) d) t
                        (travelled (component i segs Ts) (S d) t)) /\
  ((d < p)%nat -> continuity_pt (travelled (component i segs Ts) d) t).
Proof. exact gcode_smooth. Qed.
Example C47_gcode_ex : gcode_continuity [seg_a; seg_b] = 2%nat /\
  gcode_connections 2 [seg_a; seg_b] [1; 2] = connections [seg_a; seg_b] [1; 2].
Proof. split; reflexivity. Qed.
Print Assumptions C47_gcode.

(* the constraints say exactly that the derivatives with respect to physical time agree at the joint *)
Theorem C47_constraint : forall p n s1 s2 T1 T2, regular_spline p s1 -> regular_spline p s2 ->
  0 < T1 -> 0 < T2 -> (n <= p)%nat ->
  (Forall (fun v => v = 0) (connection n s1 s2 T1 T2) <->
   forall d, (d < n)%nat -> in_seconds s1 T1 d T1 = in_seconds s2 T2 d 0).
Proof. exact connection_spec. Qed.
Example C47_constraint_ex : in_seconds (mkS obasis [0; 0; 1]) 1 1 1 = in_seconds (mkS obasis [1; 3; 5]) 2 1 0.
Proof.
  apply (proj1 (C47_constraint 2 2 _ _ 1 2 (quad_regular 0 0 1) (quad_regular 1 3 5) ltac:(lra) ltac:(lra) ltac:(lia))); [|lia].
  rewrite quad_connection. repeat constructor; lra.
Qed.
Print Assumptions C47_constraint.

(* the initial constraint of the first segment fixes the value at the current time *)
Theorem C47_start : forall p s T0 rest d c t, regular_spline p s -> (d <= p)%nat -> 0 < T0 -> t <= T0 ->
  init_values [(derivative s d, c * T0 ^ d)] t T0 = [0] -> travelled ((s, T0) :: rest) d t = c.
Proof. exact travelled_start. Qed.
Example C47_start_ex : init_values [(derivative (mkS obasis [1; 3; 5]) 1, 2 * 2 ^ 1)] 0 2 = [0].
Proof.
  unfold init_values. cbn [map fst snd]. rewrite quad_derivative, evalspline_call by reflexivity.
  replace (0 / 2) with 0 by field. rewrite line_call by lra. f_equal. lra.
Qed.
Print Assumptions C47_start.

(* the terminal constraint of the last segment fixes the value at the total time *)
Theorem C47_end : forall p l s T d c, good_segs p l -> 0 < T ->
  terminal_values [(derivative s d, c * T ^ d)] = [0] ->
  travelled (l ++ [(s, T)]) d (duration (l ++ [(s, T)])) = c.
Proof. exact travelled_end. Qed.
Example C47_end_ex : terminal_values [(derivative (mkS obasis [1; 3; 5]) 1, 2 * 2 ^ 1)] = [0].
Proof.
  unfold terminal_values. cbn [map fst snd]. rewrite quad_derivative, line_call by lra. f_equal. lra.
Qed.
Print Assumptions C47_end.

(* the total time is the sum of the motion times *)
Theorem C47_total : forall segs Ts i, length segs = length Ts ->
  duration (component i segs Ts) = total_time Ts.
Proof. exact duration_total. Qed.
Example C47_total_ex : total_time [1; 2] = 3.
Proof. unfold total_time. simpl. lra. Qed.
Print Assumptions C47_total.

(* a clamped spline is differentiable in its whole domain, one-sided at the ends *)
Theorem C47_within : forall s o x, well_formed (sbasis s) -> sized s -> clamped (sbasis s) ->
  (o < degree (sbasis s))%nat -> lo_end (sbasis s) <= x <= hi_end (sbasis s) ->
  (lo_end (sbasis s) < x < hi_end (sbasis s) -> mult_le (sbasis s) x (degree (sbasis s) - o - 1)) ->
  deriv_in (lo_end (sbasis s)) (hi_end (sbasis s)) (call (derivative s o)) x (call (derivative s (S o)) x).
Proof. exact derivative_within. Qed.
Example C47_within_ex : deriv_in 0 1 (call (mkS obasis [0; 0; 1])) 0 0.
Proof.
  destruct (quad_regular 0 0 1) as ((A & B & _ & _) & C & _).
  assert (K := C47_within (mkS obasis [0; 0; 1]) 0 0 A C B ltac:(simpl; lia)).
  unfold lo_end, hi_end in K. simpl nth in K. rewrite quad_derivative, line_call in K by lra.
  replace ((1 - 0) * (2 * (0 - 0)) + 0 * (2 * (1 - 0))) with 0 in K by ring.
  apply K; lra.
Qed.
Print Assumptions C47_within.

(* motion times are only constrained to be non-negative; with zero times the derivatives are not connected *)
Theorem C47_zero_times_refuted : exists s1 s2, regular_spline 2 s1 /\ regular_spline 2 s2 /\
  positivity [0; 0] /\ Forall (fun v => v = 0) (connections [[s1]; [s2]] [0; 0]) /\
  call (derivative s1 1) 1 = 2 /\ call (derivative s2 1) 0 = -2.
Proof. exact zero_times_refuted. Qed.
Print Assumptions C47_zero_times_refuted.

(* the derivative of order p is not connected *)
Theorem C47_top_derivative_refuted : exists l, good_segs 2 l /\ meets 2 l /\
  ~ continuity_pt (travelled l 2) 1.
Proof. exact top_derivative_refuted. Qed.
Print Assumptions C47_top_derivative_refuted.

(* as long as the stop criterion does not hold the shift is a fraction of the segment *)
Theorem C84_shift : forall Ts u arrived, 0 < u -> stop_criterium Ts u arrived = false ->
  let '(v, target) := step_times (total_time Ts) u in
  0 <= v <= u /\ 0 < target /\ 0 <= v / target <= 1.
Proof. exact not_stopped_shift. Qed.
Example C84_shift_ex : stop_criterium [10] 1 [false] = false.
Proof. unfold stop_criterium, total_time, Rltb. simpl. destruct (Rlt_dec (0 + 10) 1); [lra|reflexivity]. Qed.
Print Assumptions C84_shift.

Theorem C84_stop : forall Ts u arrived, stop_criterium Ts u arrived = true <->
  total_time Ts < u \/ Forall (fun a => a = true) arrived.
Proof. exact stop_spec. Qed.
Example C84_stop_ex : stop_criterium [10; 3] 1 [true; true] = true /\ stop_criterium [10; 3] 1 [true; false] = false.
Proof.
  unfold stop_criterium, total_time, Rltb. simpl. destruct (Rlt_dec (0 + 10 + 3) 1); [lra|]. split; reflexivity.
Qed.
Print Assumptions C84_stop.

(* motion times that satisfy the constraints are non-negative and at most the total time *)
Theorem C84_times : forall Ts T, positivity Ts -> In T Ts -> 0 <= T <= total_time Ts.
Proof. exact positive_times. Qed.
Example C84_times_ex : 0 <= 3 <= total_time [10; 3].
Proof. apply C84_times; [repeat constructor; lra|simpl; auto]. Qed.
Print Assumptions C84_times.

(* free end time, at least two updates to go: exact motion time, shift between one and two update times *)
Theorem C84_free : forall el T u, 0 < el -> 0 < u -> 2 * u <= T ->
  exists f, free_init_step el T u = Some (f, T - u) /\ u < f * T <= 2 * u.
Proof. exact free_shift. Qed.
Example C84_free_ex : exists f, free_init_step 1 10 1 = Some (f, 10 - 1).
Proof. destruct (C84_free 1 10 1) as (f & H & _); try lra. exists f. exact H. Qed.
Print Assumptions C84_free.

(* the shift is not the travelled fraction *)
Theorem C84_free_refuted : exists el T u f T', 0 < el /\ 0 < u /\ 2 * u <= T /\
  free_init_step el T u = Some (f, T') /\ f <> u / T.
Proof. exact free_shift_refuted. Qed.
Print Assumptions C84_free_refuted.

(* near the end the motion time is not reduced although the curve is shifted *)
Theorem C84_free_last_refuted : exists el T u f, 0 < el /\ 0 < u /\ u < T < 2 * u /\
  free_init_step el T u = Some (f, T) /\ f * T = T - u.
Proof. exact free_last_refuted. Qed.
Print Assumptions C84_free_last_refuted.

(* with exactly two updates to go the whole curve is shifted away *)
Theorem C84_free_degenerate_refuted : exists el T u T', 0 < el /\ 0 < u /\ 2 * u <= T /\
  free_init_step el T u = Some (1, T').
Proof. exact free_degenerate_refuted. Qed.
Print Assumptions C84_free_degenerate_refuted.

(* several segments: only the first time changes *)
Theorem C84_multi : forall el T0 rest u f Ts', 0 < el ->
  init_step el (T0 :: rest) u = Some (f, Ts') ->
  exists v, Ts' = (T0 - v) :: rest /\ (2 * u <= total_time (T0 :: rest) -> v = u).
Proof. exact multi_step. Qed.
Example C84_multi_ex : exists f, init_step 1 [5; 5] 1 = Some (f, [5 - 1; 5]).
Proof.
  exists (1 / (0 + 5 + 5 - 1)). unfold init_step, step_times, Rltb. change (total_time [5; 5]) with (0 + 5 + 5).
  destruct (Rlt_dec 0 1); [|lra]. destruct (Rlt_dec (0 + 5 + 5) (2 * 1)); [lra|]. reflexivity.
Qed.
Print Assumptions C84_multi.

(* the time of the first segment can become negative *)
Theorem C84_multi_negative_refuted : exists el Ts u f T0', 0 < el /\ Forall (fun T => 0 < T) Ts /\ 0 < u /\
  stop_criterium Ts u [false] = false /\ init_step el Ts u = Some (f, T0' :: tl Ts) /\ T0' < 0.
Proof. exact multi_negative_refuted. Qed.
Print Assumptions C84_multi_negative_refuted.

(* the first segment is shifted by a fraction of the total time *)
Theorem C84_multi_shift_refuted : exists el T0 rest u f Ts', 0 < el /\ 0 < u /\ 2 * u <= T0 /\
  Forall (fun T => 0 < T) rest /\
  init_step el (T0 :: rest) u = Some (f, Ts') /\ f * T0 < u.
Proof. exact multi_shift_refuted. Qed.
Print Assumptions C84_multi_shift_refuted.

(* simulation never runs past the last segment *)
Theorem C84_simulated : forall Ts rel st dt v, 0 <= rel <= total_time Ts -> 0 <= st ->
  simulated_time Ts rel st dt = Some v ->
  0 <= v <= st /\ rel + v <= total_time Ts /\ (rel + st <= total_time Ts -> v = st).
Proof. exact simulated_time_spec. Qed.
Example C84_simulated_ex : simulated_time [10; 3] 12 2 (1/10) = Some (0 + 10 + 3 - 12).
Proof.
  unfold simulated_time, Rltb. change (total_time [10; 3]) with (0 + 10 + 3).
  destruct (Rlt_dec (0 + 10 + 3) (1/10)); [lra|]. destruct (Rlt_dec (0 + 10 + 3) 2); [lra|].
  destruct (Rlt_dec (0 + 10 + 3 - 12) 2); [reflexivity|lra].
Qed.
Print Assumptions C84_simulated.
