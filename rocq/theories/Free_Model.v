(** The closed loop of a simulation with free end time: FreeTPoint2point with
    one vehicle of the holonomic kind.  The loop of Loop_Model with the motion
    time as part of the solver's answer.
    Sources: omgtools/problems/point2point.py, omgtools/execution/simulator.py,
    omgtools/execution/deployer.py, omgtools/vehicles/vehicle.py,
    omgtools/vehicles/holonomic.py.

    Simplifications.  Those of Loop_Model.  The motion time is an exact
    rational.  init_step (the guess for the next solve) has no effect but on
    the solver and is left out (Multi_Model.free_init_step).  init_time is
    None, its default. *)
From Coq Require Import String Reals QArith Qreals ZArith List Bool Arith.
From Verif Require Import Spline_Model Concat_Model Vehicle_Model Lift_Model Loop_Model.
From Verif Require Grid_Model Timing_Model.
Import ListNotations.
Local Open Scope R_scope.

(** the answer of the solver: splines over normalised time, hyperplanes (the
    splines g of the fixed-time problem are not used) and the variable T;
    point2point.py 279-282 *)
Record fanswer := mkF { body : answer; motion : Q }.

(** point2point.py 319-320 and 339-340: nothing is stored and nothing is
    simulated *)
Definition skipped (g : settings) (f : fanswer) : bool := Grid_Model.Qltb (motion f) (ts g).

(** point2point.py 321-332 with vehicle.py 250-276: the samples of the splines
    from now to the end of the motion *)
Definition f_samples (g : settings) (f : fanswer) (t : Q) : option (list column) :=
  match store_splines [map (path (body f)) (seq 0 (dim g))] [Q2R (motion f)] None 3 with
  | None => None
  | Some ss =>
    let axis := Timing_Model.time_axis (motion f) 0 (ts g) in
    Some (map (fun s => signals_at ss (s - hd 0%Q axis + t) s) axis)
  end.
(** deployer.py 68-75: store, remember the time, and read the trajectories of
    the vehicle, which do not exist before anything was stored *)
Definition f_deployed (g : settings) (f : fanswer) (w : world) : option world :=
  let kept p := mkW (now w) (now w) (iteration0 w) (start_time w) (log w) (Some p) (p_state w) (p_input w)
                    (obstacles w) in
  if skipped g f then match plan w with None => None | Some p => Some (kept p) end
  else match f_samples g f (now w) with None => None | Some p => Some (kept p) end.

(** point2point.py 341-344: the time that is simulated *)
Definition f_time (g : settings) (f : fanswer) : Q :=
  Timing_Model.sim_time (motion f) 0 (if Grid_Model.Qltb (motion f) (upd g) then motion f else upd g).
(** point2point.py 333-346 with problem.py 187-192 *)
Definition f_simulated (g : settings) (f : fanswer) (w : world) : option world :=
  if skipped g f then Some w
  else match simulate_vehicle g (f_time g f) w with
       | None => None
       | Some l => Some (mkW (now w) (dep_now w) (iteration0 w) (start_time w) (Some l) (plan w) (p_state w)
                             (p_input w) (map (simulate_obstacle g (f_time g f)) (obstacles w)))
       end.
(** vehicle.py 364-373: the columns that a simulation of t seconds adds to the
    signals that are copied from the plan *)
Definition copied_columns (t h : Q) : Z := Timing_Model.n_samp t h.
(** vehicle.py 382-387 and 413-416: the columns that it adds to the signal
    state with the default options; the integration returns one more than the
    truncated quotient *)
Definition state_columns (t h : Q) : Z := Z.min (Timing_Model.n_samp t h) (Timing_Model.pint (t / h)).
(** simulator.py 92-99 without the stop criterion *)
Definition f_update (g : settings) (f : fanswer) (w : world) : option world :=
  match prepared g w with
  | None => None
  | Some w1 => match f_deployed g f w1 with None => None | Some w2 => f_simulated g f w2 end
  end.
(** simulator.py 42-51: a pass of the loop that does not stop *)
Definition f_pass (g : settings) (f : fanswer) (w : world) : option world :=
  match f_update g f w with None => None | Some w' => Some (advance g w') end.
(** simulator.py 39-51: the passes of run, one answer per pass *)
Fixpoint f_passes (g : settings) (fs : list fanswer) (w : world) : option world :=
  match fs with
  | [] => Some w
  | f :: r => match f_pass g f w with None => None | Some w' => f_passes g r w' end
  end.
(** point2point.py 345 and 370-371: the objective after an update; w is the
    world after the update *)
Definition f_objective (g : settings) (f : fanswer) (w : world) (acc : Q) : Q :=
  if skipped g f then acc else (now w + f_time g f - start_time w)%Q.
(** point2point.py 348-352 *)
Definition f_stop (g : settings) (stol : R) (goal : list R) (f : fanswer) (w : world) : bool :=
  if Grid_Model.Qltb (motion f) (upd g) then true else stop_criterium stol goal w.
(** simulator.py 39-53: run with at most as many passes as there are answers:
    the world after the update in which the vehicle stopped, the objective
    then, and the number of passes before it.  None where an update raises or
    the answers are used up before the vehicle stops. *)
Fixpoint f_run (g : settings) (stol : R) (goal : list R) (fs : list fanswer) (w : world) (acc : Q)
    : option (world * Q * nat) :=
  match fs with
  | [] => None
  | f :: r =>
    match f_update g f w with
    | None => None
    | Some w' =>
      let acc' := f_objective g f w' acc in
      if f_stop g stol goal f w' then Some (w', acc', 0%nat)
      else match f_run g stol goal r (advance g w') acc' with
           | None => None
           | Some (w2, j, k) => Some (w2, j, S k)
           end
    end
  end.

(* ---------- the constraints of one problem ---------- *)

(** holonomic.py 98-105 for d components and splines of degree p: position and
    all derivatives up to the degree (holonomic1d.py 58-65, holonomic3d.py 84-92);
    with the option no_term_con_der the position only (point2point.py 294-295) *)
Definition term_cons (noder : bool) (d p : nat) (goal : list R) : list (sx * R) :=
  map (fun i => (SV i 0, nth i goal 0)) (seq 0 d) ++
  (if noder then [] else flat_map (fun o => map (fun i => (SV i o, 0)) (seq 0 d)) (seq 1 p)).

(** what an answer satisfies that the solver accepts in the prepared world w:
    the constraints of the vehicle (limits T for the motion time T), the motion
    time is not negative (point2point.py 285-286), initial conditions at t/T = 0
    (point2point.py 64-70 and 283), terminal constraints (point2point.py
    290-298), collision avoidance for every obstacle (environment.py 102-146) *)
Definition f_accepted (g : settings) (noder : bool) (tol : R) (limits : R -> option (list con)) (goal : list R)
    (vchk : list (R * R)) (rv sd : R) (w : world) (f : fanswer) : Prop :=
  let T := Q2R (motion f) in
  let a := body f in
  (exists cs, limits T = Some cs /\ solved tol (own a) cs) /\ - tol <= T /\
  starts tol (own a) (0 / T) (init_cons (dim g) (p_state w) (p_input w) T) /\
  stops tol (own a) (term_cons noder (dim g) 3 goal) /\
  (forall k o, nth_error (obstacles w) k = Some o -> solved tol (seen a k o 0 T) (avoid_cons vchk rv sd o)).
