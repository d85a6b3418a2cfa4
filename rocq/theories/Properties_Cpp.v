(** Exported C++ classes: sampling of splines (C88), prediction (C89), time
    (C90), time of distributed problems (C91). *)
From Coq Require Import Reals List Arith Bool ZArith Lra Lia.
From Verif Require Import Spline_Model Spline_Spec Splop_Spec Obst_Model Multi_Spec Concat_Spec Concat_Proofs8
  Export_Model Cpp_Model Cpp_Spec Cpp_Proofs Cpp_Proofs2 Cpp_Proofs3.
Import ListNotations.
Local Open Scope R_scope.

(* the knots filled in by the constructor are those of the Python basis *)
Theorem C88_knots : forall deg ki, (1 <= ki)%nat -> cpp_knots deg ki = Some (py_knots deg ki).
Proof. exact knots_agree. Qed.
Example C88_knots_ex : cpp_knots 2 2 = Some [0; 0; 0; 1 / 2; 1; 1; 1].
Proof.
  rewrite C88_knots by lia. f_equal. cbn. repeat match goal with |- _ :: _ = _ :: _ => f_equal end; field.
Qed.
Print Assumptions C88_knots.

(* this is a clamped basis on [0,1] *)
Theorem C88_basis : forall deg ki, (1 <= ki)%nat ->
  well_formed (mkB (py_knots deg ki) deg) /\ clamped (mkB (py_knots deg ki) deg) /\
  nth 0 (py_knots deg ki) 0 = 0 /\ dom_left (mkB (py_knots deg ki) deg) = 0 /\ dom_right (mkB (py_knots deg ki) deg) = 1.
Proof. exact py_knots_wf. Qed.
Example C88_basis_ex : dom_right (mkB (py_knots 3 10) 3) = 1.
Proof. destruct (C88_basis 3 10 ltac:(lia)) as (_ & _ & _ & _ & E). exact E. Qed.
Print Assumptions C88_basis.

(* the triangular scheme of evalSpline gives the value of the spline at every point *)
Theorem C88_evaluation : forall s x, sized s ->
  evalSpline x (knots (sbasis s)) (coeffs s) (degree (sbasis s)) = call s x.
Proof. exact eval_agrees. Qed.
Example C88_evaluation_ex : evalSpline 1 (knots obasis) [0; 3; 7] 2 = 7.
Proof.
  pose proof (C88_evaluation (mkS obasis [0; 3; 7]) 1 eq_refl) as V. etransitivity; [exact V|].
  destruct (quad_in_seconds 0 3 7 1 ltac:(lra)) as (_ & E & _). unfold in_seconds in E.
  replace (1 / 1) with 1 in E by field. change (derivative (mkS obasis [0; 3; 7]) 0) with (mkS obasis [0; 3; 7]) in E. lra.
Qed.
Print Assumptions C88_evaluation.

(* sampling with the stored derivative matrices gives the derivatives in seconds, at every time and for every order up to the degree *)
Theorem C88_sampling : forall s T d t, well_formed (sbasis s) -> sized s -> (d <= degree (sbasis s))%nat ->
  sample_spline (knots (sbasis s)) (degree (sbasis s)) T (coeffs s) d t = in_seconds s T d t.
Proof. exact sample_agrees. Qed.
Example C88_sampling_ex : sample_spline (knots obasis) 2 5 [0; 3; 7] 1 5 = 8 / 5.
Proof.
  destruct (quad_proper 0 3 7) as ((WF & _) & SZ & _).
  pose proof (C88_sampling (mkS obasis [0; 3; 7]) 5 1 5 WF SZ ltac:(simpl; lia)) as V. etransitivity; [exact V|].
  destruct (quad_in_seconds 0 3 7 5 ltac:(lra)) as (_ & _ & _ & E & _). rewrite E. field.
Qed.
Print Assumptions C88_sampling.

(* the initial guess runs from the present state to the goal and never leaves the range between them *)
Theorem C88_initial_guess : forall deg ki s0 sT, (1 <= ki)%nat -> (1 <= deg)%nat ->
  let s := mkS (mkB (py_knots deg ki) deg) (init_spline (ki + deg) s0 sT) in
  sized s /\ call s 0 = s0 /\ call s 1 = sT /\
  forall x, 0 <= x <= 1 -> Rmin s0 sT <= call s x <= Rmax s0 sT.
Proof. exact init_guess. Qed.
Example C88_initial_guess_ex : call (mkS (mkB (py_knots 3 10) 3) (init_spline 13 2 6)) 1 = 6.
Proof. destruct (C88_initial_guess 3 10 2 6 ltac:(lia) ltac:(lia)) as (_ & _ & E & _). exact E. Qed.
Print Assumptions C88_initial_guess.

(* what integrate adds to the state of a holonomic vehicle *)
Theorem C89_sum : forall dim dt s0 input steps,
  Forall (fun u => length u = dim) input -> length s0 = dim -> (steps < length input)%nat ->
  exists s, integrate holonomic_ode s0 input dt steps = Some s /\ length s = dim /\
    forall j, (j < dim)%nat -> nth j s 0 =
      nth j s0 0 + acc_sum steps (fun i => dt / 6 * (5 * nth j (nth i input []) 0 + nth j (nth (S i) input []) 0)).
Proof. exact integrate_sum. Qed.
Example C89_sum_ex : exists s, integrate holonomic_ode [1] [[0]; [6]; [12]] 1 2 = Some s /\ nth 0 s 0 = 9.
Proof.
  destruct (C89_sum 1 1 [1] [[0]; [6]; [12]] 2 ltac:(repeat constructor) eq_refl ltac:(simpl; lia)) as (s & E & _ & V).
  exists s. split; [exact E|]. rewrite V by lia. cbn. field.
Qed.
Print Assumptions C89_sum.

(* constant input: exact *)
Theorem C89_constant : forall dim dt s0 u steps n,
  length u = dim -> length s0 = dim -> (steps < n)%nat ->
  exists s, integrate holonomic_ode s0 (repeat u n) dt steps = Some s /\ length s = dim /\
    forall j, (j < dim)%nat -> nth j s 0 = nth j s0 0 + INR steps * dt * nth j u 0.
Proof. exact integrate_constant. Qed.
Example C89_constant_ex : exists s, integrate holonomic_ode [1; 2] (repeat [3; 4] 11) (1 / 10) 10 = Some s /\ nth 1 s 0 = 6.
Proof.
  destruct (C89_constant 2 (1 / 10) [1; 2] [3; 4] 10 11 eq_refl eq_refl ltac:(lia)) as (s & E & _ & V).
  exists s. split; [exact E|]. rewrite V by lia. cbn. field.
Qed.
Print Assumptions C89_constant.

(* varying input: off from the integral of the linearly interpolated input by a third of a sample time times the change of the input *)
Theorem C89_error : forall dim dt s0 input steps,
  Forall (fun u => length u = dim) input -> length s0 = dim -> (steps < length input)%nat ->
  exists s, integrate holonomic_ode s0 input dt steps = Some s /\ length s = dim /\
    forall j, (j < dim)%nat -> nth j s 0 =
      nth j s0 0 + trapezoid dt input steps j + dt / 3 * (nth j (nth 0 input []) 0 - nth j (nth steps input []) 0).
Proof. exact integrate_error. Qed.
Example C89_error_ex : exists s, integrate holonomic_ode [1] [[0]; [6]; [12]] 1 2 = Some s /\ nth 0 s 0 = 1 + 12 - 4.
Proof.
  destruct (C89_error 1 1 [1] [[0]; [6]; [12]] 2 ltac:(repeat constructor) eq_refl ltac:(simpl; lia)) as (s & E & _ & V).
  exists s. split; [exact E|]. rewrite V by lia. unfold trapezoid. cbn. field.
Qed.
Print Assumptions C89_error.

Theorem C89_varying_input_refuted : exists s0 input s, integrate holonomic_ode s0 input 1 1 = Some s /\
  nth 0 s 0 <> nth 0 s0 0 + trapezoid 1 input 1 0.
Proof. exact varying_input_refuted. Qed.
Print Assumptions C89_varying_input_refuted.

(* stopping in between and continuing gives the same state for a holonomic vehicle *)
Theorem C89_restart : forall dt s0 input a b s, integrate holonomic_ode s0 input dt a = Some s ->
  integrate holonomic_ode s0 input dt (a + b) = integrate holonomic_ode s (skipn a input) dt b.
Proof. exact integrate_twice. Qed.
Example C89_restart_ex : integrate holonomic_ode [1] [[0]; [6]; [12]] 1 2
  = integrate holonomic_ode [2] [[6]; [12]] 1 1.
Proof.
  change [[6]; [12]] with (skipn 1 [[0]; [6]; [12]]). apply (C89_restart 1 [1] [[0]; [6]; [12]] 1 1).
  cbn. f_equal. f_equal. field.
Qed.
Print Assumptions C89_restart.

(* for an ode that depends on the state it does not: every step starts from the initial state *)
Theorem C89_state_ode_refuted : exists ode s0 input s1 s2 s2', integrate ode s0 input 1 1 = Some s1 /\
  integrate ode s1 (skipn 1 input) 1 1 = Some s2 /\ integrate ode s0 input 1 2 = Some s2' /\ nth 0 s2 0 <> nth 0 s2' 0.
Proof. exact state_ode_refuted. Qed.
Print Assumptions C89_state_ode_refuted.

(* ideal prediction reads the stored trajectory *)
Theorem C89_ideal : forall ode s0 st inp dt steps shift,
  (steps + shift < length st)%nat -> (steps + shift < length inp)%nat ->
  predict ode Ideal s0 st inp dt steps shift = Some (nth (steps + shift) st [], nth (steps + shift) inp []).
Proof. exact predict_ideal. Qed.
Example C89_ideal_ex : predict holonomic_ode Ideal [0] [[1]; [2]; [3]] [[4]; [5]; [6]] 1 1 1 = Some ([3], [6]).
Proof. rewrite C89_ideal by (simpl; lia). reflexivity. Qed.
Print Assumptions C89_ideal.

(* otherwise the stored input is integrated from the measured state, beginning at the shift *)
Theorem C89_integrated : forall dim s0 st inp dt steps shift,
  Forall (fun u => length u = dim) inp -> length s0 = dim -> (steps + shift < length inp)%nat ->
  exists s, predict holonomic_ode Integrate s0 st inp dt steps shift = Some (s, nth (steps + shift) inp []) /\
    forall j, (j < dim)%nat -> nth j s 0 =
      nth j s0 0 + acc_sum steps (fun i => dt / 6 * (5 * nth j (nth (i + shift) inp []) 0 + nth j (nth (S i + shift) inp []) 0)).
Proof. exact predict_integrated. Qed.
Example C89_integrated_ex : exists s, predict holonomic_ode Integrate [1] [] [[9]; [0]; [6]; [12]] 1 2 1 = Some (s, [12]) /\ nth 0 s 0 = 9.
Proof.
  destruct (C89_integrated 1 [1] [] [[9]; [0]; [6]; [12]] 1 2 1 ltac:(repeat constructor) eq_refl ltac:(simpl; lia)) as (s & E & V).
  exists s. split; [exact E|]. rewrite V by lia. cbn. field.
Qed.
Print Assumptions C89_integrated.

(* a defined prediction stays within the stored samples *)
Theorem C89_defined : forall ode md s0 st inp dt steps shift L,
  length st = stored_samples L steps -> length inp = stored_samples L steps ->
  (exists r, predict ode md s0 st inp dt steps shift = Some r) -> (steps + shift <= Nat.max L steps)%nat.
Proof. exact predict_defined. Qed.
Example C89_defined_ex : predict holonomic_ode Ideal [0] (repeat [0] 6) (repeat [0] 6) 1 3 2 = Some ([0], [0]) /\ (3 + 2 <= Nat.max 5 3)%nat.
Proof. split; [reflexivity|]. apply (C89_defined holonomic_ode Ideal [0] (repeat [0] 6) (repeat [0] 6) 1); [reflexivity|reflexivity|eexists; reflexivity]. Qed.
Print Assumptions C89_defined.

(* and it is defined whenever update and shift fit in the trajectory length *)
Theorem C89_total : forall dim md s0 st inp dt steps shift L,
  length st = stored_samples L steps -> length inp = stored_samples L steps ->
  Forall (fun u => length u = dim) inp -> length s0 = dim -> (steps + shift <= Nat.max L steps)%nat ->
  exists r, predict holonomic_ode md s0 st inp dt steps shift = Some r.
Proof. exact predict_total. Qed.
Example C89_total_ex : exists r, predict holonomic_ode Integrate [0] (repeat [0] 6) (repeat [0] 6) 1 3 2 = Some r.
Proof. apply (C89_total 1 Integrate [0] (repeat [0] 6) (repeat [0] 6) 1 3 2 5); try reflexivity; [repeat constructor]. Qed.
Print Assumptions C89_total.

(* without a trajectory length every shifted prediction reads past the end *)
Theorem C89_default_length_refuted : forall ode md s0 st inp dt steps shift,
  length st = stored_samples 0 steps -> length inp = stored_samples 0 steps -> (0 < shift)%nat ->
  predict ode md s0 st inp dt steps shift = None.
Proof. exact default_length_refuted. Qed.
Example C89_default_length_refuted_ex : predict holonomic_ode Provided [0] (repeat [0] 4) (repeat [0] 4) 1 3 1 = None.
Proof. apply C89_default_length_refuted; [reflexivity|reflexivity|lia]. Qed.
Print Assumptions C89_default_length_refuted.

(* after any history of solver verdicts the time is the number of successes times the update time, a failed update does not move it, and the splines have been shifted once per knot interval passed *)
Theorem C90_clock : forall ki T u dt oks ok, 0 < T -> 0 <= u -> u * INR ki <= T ->
  let k := p2p_run ki T u dt oks in let k' := p2p_update ki T u dt 0 ok k in
  k_cur k = INR (successes oks) * u /\ k_cur k' = k_cur k + (if ok then u else 0) /\
  Z.of_nat (k_shifts k') = interval ki T (k_cur k).
Proof. exact p2p_clock. Qed.
Example C90_clock_ex : k_cur (p2p_run 10 10 (1 / 2) (1 / 100) [true; false; true]) = 1.
Proof.
  destruct (C90_clock 10 10 (1 / 2) (1 / 100) [true; false; true] true) as (E & _); [lra|lra|simpl; lra|].
  rewrite E. cbn. field.
Qed.
Print Assumptions C90_clock.

(* with a prediction shift a failed update moves the time *)
Theorem C90_retry_refuted : forall ki T u dt k, dt <> 0 ->
  k_cur (p2p_update ki T u dt 1 true (p2p_update ki T u dt 1 false k)) <> k_cur (p2p_update ki T u dt 1 true k).
Proof. exact retry_refuted. Qed.
Example C90_retry_refuted_ex : k_cur (p2p_update 10 10 (1 / 2) (1 / 10) 1 true (p2p_update 10 10 (1 / 2) (1 / 10) 1 false clock0))
  <> k_cur (p2p_update 10 10 (1 / 2) (1 / 10) 1 true clock0).
Proof. apply C90_retry_refuted. lra. Qed.
Print Assumptions C90_retry_refuted.

(* an update time of two knot intervals: one shift for two intervals *)
Theorem C90_long_update_refuted : exists ki T u dt,
  let k := p2p_run ki T u dt [true] in let k' := p2p_update ki T u dt 0 true k in
  0 < T /\ k_shifts k' = 1%nat /\ interval ki T (k_cur k) = 2%Z.
Proof. exact long_update_refuted. Qed.
Print Assumptions C90_long_update_refuted.

(* the local time is in the first knot interval *)
Theorem C90_local_range : forall ki T t, (0 < ki)%nat -> 0 < T -> 0 <= local_time ki T t < T / INR ki.
Proof. exact local_range. Qed.
Example C90_local_range_ex : 0 <= local_time 10 10 (37 / 10) < 10 / INR 10.
Proof. apply C90_local_range; [lia|lra]. Qed.
Print Assumptions C90_local_range.

(* whole milliseconds: local time and shifts together are the time *)
Theorem C90_local_time : forall ki T t m q, (0 < ki)%nat -> 0 < T ->
  t = IZR m / 1000 -> (0 <= m)%Z -> T / INR ki = IZR q / 1000 -> (0 < q < 2000000)%Z ->
  local_time ki T t = t - IZR (interval ki T t) * (T / INR ki).
Proof. exact local_milliseconds. Qed.
Example C90_local_time_ex : local_time 10 10 (37 / 10) = 37 / 10 - IZR (interval 10 10 (37 / 10)) * (10 / INR 10).
Proof. apply (C90_local_time 10 10 (37 / 10) 3700 1000); [lia|lra|field|lia|cbn; field|lia]. Qed.
Print Assumptions C90_local_time.

(* other knot intervals: right after a shift the local time can be almost a whole interval *)
Theorem C90_local_rounding_refuted : exists ki T u dt,
  let k := p2p_run ki T u dt [true] in let k' := p2p_update ki T u dt 0 true k in
  0 < T /\ 0 < u /\ u * INR ki <= T /\ k_shifts k' = 1%nat /\ k_cur k = T / INR ki /\
  local_time ki T (k_cur k) = 33 / 1000 /\ T / INR ki - local_time ki T (k_cur k) < 4 / 10000.
Proof. exact local_rounding_refuted. Qed.
Print Assumptions C90_local_rounding_refuted.

(* distributed problems: time stands still during the initial iterations, then moves with every success; shifts as for one vehicle *)
Theorem C91_clock : forall ki T u dt init oks ok, 0 < T -> 0 <= u -> u * INR ki <= T ->
  let k := admm_run ki T u dt init oks in let k' := admm_update1 ki T u dt init 0 ok k in
  k_iter k = successes oks /\ k_cur k = INR (successes oks - init) * u /\
  Z.of_nat (k_shifts k') = interval ki T (k_cur k).
Proof. exact admm_clock. Qed.
Example C91_clock_ex : k_cur (admm_run 10 10 (1 / 2) (1 / 100) 2 [true; true; false; true]) = 1 / 2.
Proof.
  destruct (C91_clock 10 10 (1 / 2) (1 / 100) 2 [true; true; false; true] true) as (_ & E & _); [lra|lra|simpl; lra|].
  rewrite E. cbn. field.
Qed.
Print Assumptions C91_clock.

(* stepping back after a success and repeating the update is as if the update had been done once *)
Theorem C91_step_back : forall ki T u dt init oks ok, 0 < T -> 0 <= u -> u * INR ki <= T ->
  let k := admm_run ki T u dt init oks in
  admm_update1 ki T u dt init 0 ok (step_back (admm_update1 ki T u dt init 0 true k)) = admm_update1 ki T u dt init 0 ok k.
Proof. exact step_back_repeats. Qed.
Example C91_step_back_ex : admm_update1 10 10 (1 / 2) 1 0 0 true (step_back (admm_update1 10 10 (1 / 2) 1 0 0 true (admm_run 10 10 (1 / 2) 1 0 [true])))
  = admm_update1 10 10 (1 / 2) 1 0 0 true (admm_run 10 10 (1 / 2) 1 0 [true]).
Proof. apply C91_step_back; [lra|lra|simpl; lra]. Qed.
Print Assumptions C91_step_back.

(* stepping back twice does not go back twice in time *)
Theorem C91_two_steps_back_refuted : exists ki T u dt init oks,
  let k := admm_run ki T u dt init oks in
  k_cur (step_back (step_back k)) <> k_cur k - 2 * u /\ k_iter (step_back (step_back k)) = (k_iter k - 2)%nat.
Proof. exact two_steps_back_refuted. Qed.
Print Assumptions C91_two_steps_back_refuted.

(* the z update and the residuals use the time of the x update exactly during the initial iterations *)
Theorem C91_z_time : forall ki T u dt init shift k, 0 < u ->
  z_time (admm_update1 ki T u dt init shift true k) = x_time dt shift k <-> (k_iter k < init)%nat.
Proof. exact z_update_time. Qed.
Example C91_z_time_ex : z_time (admm_update1 10 10 (1 / 2) 1 2 0 true clock0) = x_time 1 0 clock0.
Proof. apply C91_z_time; [lra|cbn; lia]. Qed.
Print Assumptions C91_z_time.

(* afterwards they use the time of the next update *)
Theorem C91_z_late_refuted : forall ki T u dt init shift k, (init <= k_iter k)%nat ->
  z_time (admm_update1 ki T u dt init shift true k) = x_time dt shift k + u.
Proof. exact z_update_late. Qed.
Example C91_z_late_refuted_ex : z_time (admm_update1 10 10 (1 / 2) 1 0 0 true clock0) = x_time 1 0 clock0 + 1 / 2.
Proof. apply C91_z_late_refuted. cbn. lia. Qed.
Print Assumptions C91_z_late_refuted.
