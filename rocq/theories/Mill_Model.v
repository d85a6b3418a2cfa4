(** Machining per segment: Deployer.update_segment and Deployer.check_results
    for a GCodeSchedulerProblem with one Tool.  Every pass of the loop starts
    from the end values of the previous pass, solves the local problem, appends
    the samples of the first segment and its end values to the trajectories,
    and takes them back if the solver did not succeed.
    Sources: omgtools/execution/deployer.py,
    omgtools/problems/gcodeschedulerproblem.py,
    omgtools/problems/gcodeproblem.py, omgtools/vehicles/tool.py,
    omgtools/vehicles/vehicle.py.

    Simplifications.  Times are exact rationals, signals exact reals, splev and
    la.solve as in Loop_Model and Concat_Model.  The solver is not modelled: its
    answer is an argument of every pass.  The four trajectories (state, input,
    dinput, ddinput) always have the same number of columns, so they are one
    list of columns.  The tool is never simulated in this mode, so it has no
    attribute signals and curr_state is the predicted state.  The state of the
    problem is a list of floats (deployer.py 105 with problem.py 146-149).  The
    update time and the delay that Deployer.update computes (deployer.py 45-66)
    do not reach the prediction, because the states are enforced
    (vehicle.py 303-321), nor the local problem (gcodeproblem.py 135-152 and
    184-193); they are left out.  Plotting and printing are left out, and the
    breakpoint of deployer.py 193 is continued.  np.array(x)/0. is nan or inf
    in the code and 0 here ([finite_line] says when no division by zero
    happens).  A raised exception is None. *)
From Coq Require Import Reals QArith Qreals ZArith List Bool Arith.
From Verif Require Import Spline_Model Concat_Model Multi_Model Vehicle_Model Loop_Model.
From Verif Require Timing_Model Grid_Model Gcode_Model.
Import ListNotations.
Local Open Scope R_scope.

(** one column of state_traj, input_traj, dinput_traj and ddinput_traj;
    deployer.py 92-95 *)
Record sample := mkP { q_state : list R; q_input : list R; q_dinput : list R; q_ddinput : list R }.
(** a column that is not there; used by check_results, deployer.py 209-210 *)
Definition no_sample : sample := mkP [] [] [] [].

(** sample_time of the deployer (deployer.py 26-29); the degree of the tool (3,
    tool.py 42); the rooms and the overall goal of the scheduler
    (gcodeschedulerproblem.py 55-61); point_in_extended_shape for a state and a
    room (gcodeschedulerproblem.py 566-582) *)
Record workshop := mkWs {
  step : Q; deg : nat; rooms : list Gcode_Model.room; goal : Gcode_Model.pos;
  inside : list R -> Gcode_Model.room -> bool }.
(** the overall goal as a vector; deployer.py 173 *)
Definition goal_state (g : workshop) : list R :=
  let '(x, y, z) := goal g in [Q2R x; Q2R y; Q2R z].

(** the answer of the solver: the splines of every segment over normalised
    time, the motion times T0, T1, .. and whether the return status is
    Solve_Succeeded; gcodeproblem.py 56-72, deployer.py 189-191 *)
Record result := mkR { pieces : list (list bspline); times : list Q; good : bool }.
(** motion_times[0]; used by update_segment, deployer.py 115 *)
Definition first_time (a : result) : Q := hd 0%Q (times a).

(** the attributes that a pass reads and writes: the four trajectories; the
    end values states_end, inputs_end, dinputs_end, ddinputs_end; the local
    variable current_time and the attribute current_time; no_update and cnt;
    the scheduler's window, curr_state, motion_times[0] and motion_time_log;
    the tool's prediction (state, input, dinput), result_spline_segments and
    trajectories; deployer.py 81-161 *)
Record bench := mkBench {
  traj : list sample; ends : option sample;
  clock : Q; dep_clock : Q; no_update : bool; cnt : option nat;
  window : Gcode_Model.sched; curr : list R; motion0 : Q; time_log : list Q;
  pred : list R * list R * list R;
  kept : option (list (list bspline)); plan : option (list sample) }.
(** deployer.py 81-98 with gcodeschedulerproblem.py 60-69 and 81-106: before
    the first pass; [guess] is the guess of the first motion time *)
Definition bench0 (g : workshop) (n : nat) (state : list R) (guess : Q) : option bench :=
  match Gcode_Model.reinitialize (rooms g) n with
  | None => None
  | Some w => Some (mkBench [mkP state [0; 0; 0] [0; 0; 0] [0; 0; 0]] None 0 0 false None w state guess []
                            (state, [0; 0; 0], [0; 0; 0]) None None)
  end.

(** tool.py 270-282 at one time, for splines in seconds *)
Definition tool_signals (ss : list bspline) (t : Q) : sample :=
  mkP (map (fun s => splev s (Q2R t)) ss) (map (fun s => splev (derivative s 1) (Q2R t)) ss)
      (map (fun s => splev (derivative s 2) (Q2R t)) ss) (map (fun s => splev (derivative s 3) (Q2R t)) ss).
(** gcodeproblem.py 135-152 with vehicle.py 250-276: the samples of all
    segments; the continuity is the degree of the first spline
    (gcodeproblem.py 113) *)
Definition mill_samples (g : workshop) (a : result) : option (list sample) :=
  match store_splines (pieces a) (map Q2R (times a)) (Some (gcode_continuity (pieces a))) (deg g) with
  | None => None
  | Some ss => Some (map (tool_signals ss) (Timing_Model.time_axis (fold_left Qplus (times a) 0%Q) 0 (step g)))
  end.
(** gcodeproblem.py 145-146: nothing is stored *)
Definition too_short (g : workshop) (a : result) : bool :=
  Grid_Model.Qltb (fold_left Qplus (times a) 0%Q) (step g).
(** gcodeproblem.py 135-152: what the tool holds afterwards *)
Definition mill_store (g : workshop) (a : result) (b : bench)
  : option (option (list (list bspline)) * option (list sample)) :=
  if too_short g a then Some (kept b, plan b)
  else match mill_samples g a with None => None | Some p => Some (Some (pieces a), Some p) end.

(** deployer.py 101-125 with problem.py 138-163, vehicle.py 302-321 and
    tool.py 148-158: the time and the prediction of the pass; without an
    earlier result the state of the problem is enforced and the inputs are
    zero, otherwise the end values are *)
Definition mill_start (b : bench) : option (Q * (list R * list R * list R)) :=
  match kept b with
  | None => Some (0%Q, (curr b, [0; 0; 0], [0; 0; 0]))
  | Some _ => match ends b with
              | None => None
              | Some e => Some ((clock b + motion0 b)%Q, (q_state e, q_input e, q_dinput e))
              end
  end.
(** gcodeschedulerproblem.py 112-139: curr_state becomes the predicted state;
    the window moves unless the deployer wants the same segments again *)
Definition mill_window (g : workshop) (state : list R) (b : bench) : option Gcode_Model.sched :=
  let '(w, i) := (window b, inside g state) in
  match Gcode_Model.check_segments (rooms g) (goal g) i w with
  | None => None
  | Some true => Some w
  | Some false => if no_update b then Some w else Gcode_Model.solve_step (rooms g) (goal g) i w
  end.

(** deployer.py 138-146: the values at the end of the first segment *)
Definition end_values (sg : list bspline) (T : R) : sample :=
  mkP (map (fun s => call s 1) sg) (map (fun s => call (derivative s 1) 1 * 1 / T) sg)
      (map (fun s => call (derivative s 2) 1 * 1 / T ^ 2) sg) (map (fun s => call (derivative s 3) 1 * 1 / T ^ 3) sg).
(** deployer.py 131 and 157-161: the columns 1 to n_samp of the plan and the
    end values *)
Definition appended (g : workshop) (T : Q) (p : list sample) (e : sample) : list sample :=
  cols (Z.to_nat (Timing_Model.n_samp T (step g))) p ++ [e].

(** deployer.py 206-217: the input on the line through the last two inputs, a
    little beyond the last one.  In the code it is an integer 0 in z. *)
Definition perturbed (u1 u2 : list R) : list R :=
  let x1 := nth 0 u1 0 in let y1 := nth 1 u1 0 in let x2 := nth 0 u2 0 in let y2 := nth 1 u2 0 in
  let x := x2 + (x2 - x1) * (1 / 100) in
  if Rltb (1 / 1000) (Rabs (y2 - y1))
  then let a := (y2 - y1) / (x2 - x1) in [x; a * x + (- x1 * a + y1); 0]
  else [x; y1; 0].
(** deployer.py 212-213: there is no division by zero *)
Definition finite_line (u1 u2 : list R) : bool :=
  negb (Rltb (1 / 1000) (Rabs (nth 1 u2 0 - nth 1 u1 0)) && Reqb (nth 0 u2 0 - nth 0 u1 0) 0).
(** deployer.py 209-218: replace the last input; an index error with less than
    two columns *)
Definition retouched (l : list sample) : option (list sample) :=
  match rev l with
  | c2 :: c1 :: r =>
    Some (rev (mkP (q_state c2) (perturbed (q_input c1) (q_input c2)) (q_dinput c2) (q_ddinput c2) :: c1 :: r))
  | _ => None
  end.
(** deployer.py 225-226: the attribute current_time is set back *)
Definition set_back (t T : Q) : Q := if Qeq_bool t 0 then t else (t - T)%Q.
(** deployer.py 180-239, called with the values before the pass (the columns
    [old], the end values [e0] of the previous pass): accepted, or taken back.
    dinputs and ddinputs are None in the first pass, which raises anyway (209,
    230).  cnt does not exist before the first success (230). *)
Definition check_results (a : result) (old : list sample) (e0 : option sample) (b : bench) : option bench :=
  if good a then
    Some (mkBench (traj b) (ends b) (clock b) (dep_clock b) false (if no_update b then cnt b else Some 0%nat)
                  (window b) (curr b) (motion0 b) (time_log b) (pred b) (kept b) (plan b))
  else
    match retouched old, e0, ends b, cnt b with
    | Some l, Some e0, Some e, Some c =>
      if (20 <? S c)%nat then None
      else Some (mkBench l (Some (mkP (q_state e0) (q_input e) (q_dinput e0) (q_ddinput e0)))
                   (clock b) (set_back (dep_clock b) (motion0 b)) true (Some (S c))
                   (window b) (curr b) (motion0 b) (removelast (time_log b)) (pred b) (kept b) (plan b))
    | _, _, _, _ => None
    end.

(** deployer.py 100-168 with gcodeschedulerproblem.py 108-152: one pass of the
    loop *)
Definition mill_pass (g : workshop) (a : result) (b : bench) : option bench :=
  match mill_start b with
  | None => None
  | Some (t, p) =>
    match mill_window g (fst (fst p)) b, mill_store g a b with
    | Some w, Some (Some sg, Some l) =>
      match sg with
      | [] => None
      | s0 :: _ =>
        let T := first_time a in
        let e := end_values s0 (Q2R T) in
        check_results a (traj b) (ends b)
          (mkBench (traj b ++ appended g T l e) (Some e) t
                   (match kept b with None => t | Some _ => (t + T)%Q end)
                   (no_update b) (cnt b) w (fst (fst p)) T (time_log b ++ [T]) p (Some sg) (Some l))
      end
    | _, _ => None
    end
  end.
(** passes with the given answers; deployer.py 100-168 *)
Fixpoint mill_passes (g : workshop) (as_ : list result) (b : bench) : option bench :=
  match as_ with
  | [] => Some b
  | a :: r => match mill_pass g a b with None => None | Some b' => mill_passes g r b' end
  end.

(** deployer.py 173-174: the test after every pass *)
Definition target_reached (g : workshop) (b : bench) : bool :=
  let c := last (traj b) no_sample in
  Rltb (norm (vsub (goal_state g) (q_state c))) (1 / 100) && Rltb (norm (q_input c)) (1 / 100) &&
  match Gcode_Model.next_seg (window b) with Some (Some _) => false | _ => true end.
(** deployer.py 100-175: the loop with as many answers as are given; None:
    an exception, or the answers do not suffice *)
Fixpoint mill_run (g : workshop) (as_ : list result) (b : bench) : option bench :=
  match as_ with
  | [] => None
  | a :: r => match mill_pass g a b with
              | None => None
              | Some b' => if target_reached g b' then Some b' else mill_run g r b'
              end
  end.

(** deployer.py 286-288: the times at which the columns are drawn; [t] is
    current_time and [u] the motion time of the pass *)
Definition drawn_times (t u : Q) (l : list sample) : list Q := Timing_Model.linspace 0 (t + u) (length l).
(** deployer.py 359-364: position, velocity and acceleration of x, y and z, one
    row per column *)
Definition saved_rows (l : list sample) : list (list R) :=
  map (fun c => flat_map (fun i => [nth i (q_state c) 0; nth i (q_input c) 0; nth i (q_dinput c) 0]) [0; 1; 2]%nat) l.

(** tool.py 128-137 with gcodeproblem.py 88-95: the left-hand sides of the
    initial constraints *)
Definition tool_init (p : list R * list R * list R) (sg : list bspline) (T : R) : list R :=
  let '(s, u, du) := p in
  let con d v := map (fun i => (derivative (nth i sg (mkS (mkB [] 0) [])) d, T ^ d * nth i v 0)) [0; 1; 2]%nat in
  init_values (con 0%nat s ++ con 1%nat u ++ con 2%nat du) 0 T.
(** tool.py 139-146 with gcodeproblem.py 97-105: the left-hand sides of the
    terminal constraints on the last segment *)
Definition tool_term (target : list R) (degree : nat) (sg : list bspline) : list R :=
  terminal_values
    (map (fun i => (nth i sg (mkS (mkB [] 0) []), nth i target 0)) [0; 1; 2]%nat ++
     flat_map (fun d => map (fun i => (derivative (nth i sg (mkS (mkB [] 0) [])) d, 0)) [0; 1; 2]%nat) (seq 1 (degree - 1))).
