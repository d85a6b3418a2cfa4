(** Several runs of a simulation after each other, with pauses between them:
    Simulator.run and Simulator.sleep for a FixedTPoint2point problem with one
    vehicle of the holonomic kind.  The loop of one run is that of Loop_Model.
    Sources: omgtools/execution/simulator.py, omgtools/execution/deployer.py,
    omgtools/problems/problem.py, omgtools/problems/point2point.py,
    omgtools/vehicles/vehicle.py.

    Simplifications.  Those of Loop_Model.  Between two runs the user may set
    other terminal conditions (the goal is an argument of every run) and changes
    nothing else.  The list Simulator.time is left out here (Timing_Model).  An
    AttributeError is None. *)
From Coq Require Import String Reals QArith Qreals ZArith List Bool Arith.
From Verif Require Import Spline_Model Concat_Model Vehicle_Model Loop_Model.
From Verif Require Timing_Model.
Import ListNotations.
Local Open Scope R_scope.

(** the attributes of simulator, deployer, vehicle and environment, the values
    of the variables after the last solution, and the attribute objective of
    the problem (point2point.py 130) *)
Record trip := mkT { world_of : world; last_answer : option answer; cost : R }.
(** before the first run; simulator.py 27-33, point2point.py 130 *)
Definition trip0 (state input : list R) (obs : list obstacle) : trip := mkT (world0 state input obs) None 0.

(** deployer.py 39-41; reinitialize changes the variables only, which the solver
    is free to leave *)
Definition reset (w : world) : world :=
  mkW (now w) (dep_now w) true (start_time w) (log w) (plan w) (p_state w) (p_input w) (obstacles w).
(** simulator.py 45-49: the clock after the update in which the vehicle stopped *)
Definition stopped (g : settings) (w : world) : world :=
  let d := match log w with Some l => (c_time (last l no_column) - now w)%Q | None => 0%Q end in
  mkW (now w + Timing_Model.chosen (upd g) (Timing_Model.run_arg (ts g) (upd g) true d))
      (dep_now w) (iteration0 w) (start_time w) (log w) (plan w) (p_state w) (p_input w) (obstacles w).
(** simulator.py 39-53 with point2point.py 243-256: a run, given the answers of
    the solver; the objective is not reset *)
Definition drive (g : settings) (tol : R) (goal : list R) (as_ : list answer) (s : trip) : option trip :=
  let w := reset (world_of s) in
  match run g tol goal as_ w with
  | None => None
  | Some (w', k) =>
    match objective g (firstn (S k) as_) w (cost s) with
    | None => None
    | Some J => Some (mkT (stopped g w') (nth_error as_ k) J)
    end
  end.

(** problem.py 200-204: a spline that stays at the last coefficient *)
Definition constant (s : bspline) : bspline :=
  mkS (sbasis s) (repeat (last (coeffs s) 0) (length (coeffs s))).
(** vehicle.py 268-270: the samples of a motion without given time axis *)
Definition rest_axis (g : settings) (d : Q) : list Q :=
  let n := (Timing_Model.n_samp d (ts g) + 1)%Z in
  Timing_Model.linspace 0 (inject_Z (n - 1) * ts g) (Z.to_nat n).
(** problem.py 196-205 with vehicle.py 250-276 *)
Definition rest_plan (g : settings) (a : answer) (d t : Q) : option (list column) :=
  match store_splines [map (fun i => constant (path a i)) (seq 0 (dim g))] [Q2R d] None 3 with
  | None => None
  | Some ss => let axis := rest_axis g d in Some (map (fun s => signals_at ss (s - hd 0%Q axis + t) s) axis)
  end.
(** problem.py 194-207 and 187-192, simulator.py 145-147.  Before the first run
    the vehicle has no signals (problem.py 199) *)
Definition rest (g : settings) (d : Q) (s : trip) : option trip :=
  let w := world_of s in
  match log w, last_answer s with
  | Some _, Some a =>
    match rest_plan g a d (now w) with
    | None => None
    | Some p =>
      let w1 := mkW (now w) (dep_now w) (iteration0 w) (start_time w) (log w) (Some p) (p_state w) (p_input w) (obstacles w) in
      match simulate_vehicle g d w1 with
      | None => None
      | Some l => Some (mkT (mkW (now w + Timing_Model.chosen (upd g) (Some d)) (dep_now w) (iteration0 w) (start_time w) (Some l)
                                 (Some p) (p_state w) (p_input w) (map (simulate_obstacle g d) (obstacles w)))
                            (last_answer s) (cost s))
      end
    end
  | _, _ => None
  end.

(** what a user asks for: run to a goal, with the answers of the solver, or
    sleep; simulator.py 39-53 and 145-147 *)
Inductive leg := Drive (goal : list R) (as_ : list answer) | Rest (d : Q).
(* with the above, simulator.py 39-53 and 145-147 *)
Definition do_leg (g : settings) (tol : R) (l : leg) (s : trip) : option trip :=
  match l with Drive goal as_ => drive g tol goal as_ s | Rest d => rest g d s end.
(* with the above, simulator.py 39-53 and 145-147 *)
Fixpoint mission (g : settings) (tol : R) (legs : list leg) (s : trip) : option trip :=
  match legs with
  | [] => Some s
  | l :: r => match do_leg g tol l s with None => None | Some s' => mission g tol r s' end
  end.
