(** Simulating by hand: Simulator.step, run_once and hard_stop for a
    FixedTPoint2point problem with one vehicle of the holonomic kind, and the
    lists of obstacles that an environment keeps.  One update is that of
    Loop_Model.
    Sources: omgtools/execution/simulator.py, omgtools/execution/deployer.py,
    omgtools/problems/point2point.py, omgtools/vehicles/vehicle.py,
    omgtools/environment/environment.py.

    Simplifications.  Those of Loop_Model and Mission_Model.  The pose of a
    vehicle of the holonomic kind is its state with zeros appended, so that the
    rows of pose that overrule_state writes (vehicle.py 347, 349) are left out;
    the rows splines and dinput are not touched by it.  run_once calls
    Deployer.update with an infinite update time; the states are enforced then
    (problem.py 160-161, vehicle.py 315-321), before the update time is read.
    The times that update_timing turns into arrays of one entry (simulator.py
    128-129) are numbers here.  Objects are identified by a number; `in`
    compares obstacles by identity (environment.py 99), and rooms, which
    list.index compares entry by entry (environment.py 96), are taken to differ. *)
From Coq Require Import Reals QArith Qreals ZArith List Bool Arith.
From Verif Require Import Spline_Model Vehicle_Model Loop_Model Mission_Model.
From Verif Require Timing_Model.
Import ListNotations.
Local Open Scope R_scope.

(* ---------- step ---------- *)

(** simulator.py 105-107: the clock advances by u *)
Definition tick (g : settings) (u : Q) (w : world) : world :=
  mkW (now w + Timing_Model.chosen (upd g) (Some u)) (dep_now w) (iteration0 w) (start_time w) (log w) (plan w)
      (p_state w) (p_input w) (obstacles w).
(** the last column of the signals; simulator.py 67, 84, 128, 142 *)
Definition latest (w : world) : column := match log w with Some l => last l no_column | None => no_column end.
(** what step returns: the last state, the time, the motion time and whether
    the vehicle stopped; simulator.py 84 *)
Record shown := mkShown { sh_state : list R; sh_time : Q; sh_motion : Q; sh_stop : bool }.
(** simulator.py 64-90: u is the argument update_time; the update itself takes
    the update time of the simulator (lines 92-99) *)
Definition step (g : settings) (tol : R) (goal : list R) (u : Q) (a : answer) (w : world) : option (world * shown) :=
  match update g a w with
  | None => None
  | Some w' =>
    let stop := stop_criterium tol goal w' in
    let w2 := tick g (if stop then c_time (latest w') - now w' else u)%Q w' in
    Some (w2, mkShown (c_state (latest w2)) (now w2) (horizon g) stop)
  end.
(** the default argument of step, simulator.py 64 *)
Definition default_step : Q := 1 # 10.
(** a user who calls step (simulator.py 64-90) until the vehicle stops: the
    world afterwards, the number of steps before the last one and what the last
    one returns.  None where a step raises or the answers are used up. *)
Fixpoint step_until (g : settings) (tol : R) (goal : list R) (u : Q) (as_ : list answer) (w : world)
    : option (world * nat * shown) :=
  match as_ with
  | [] => None
  | a :: r =>
    match step g tol goal u a w with
    | None => None
    | Some (w', s) =>
      if sh_stop s then Some (w', 0%nat, s)
      else match step_until g tol goal u r w' with
           | None => None
           | Some (w2, k, s2) => Some (w2, S k, s2)
           end
    end
  end.

(* ---------- run_once ---------- *)

(** point2point.py 235-244 with problem.py 187-192: simulate for t seconds, None
    is np.inf *)
Definition simulate_for (g : settings) (t : option Q) (w : world) : option world :=
  let r := rel g (now w) (start_time w) in
  let d := match t with None => (horizon g - r)%Q | Some t => Timing_Model.sim_time (horizon g) r t end in
  match simulate_vehicle g d w with
  | None => None
  | Some l => Some (mkW (now w) (dep_now w) (iteration0 w) (start_time w) (Some l) (plan w) (p_state w) (p_input w)
                        (map (simulate_obstacle g d) (obstacles w)))
  end.
(** a[:, -1] = x: the last column changes; used by overrule, vehicle.py 344-357 *)
Definition set_last (f : column -> column) (l : list column) : list column :=
  match l with [] => [] | _ => removelast l ++ [f (last l no_column)] end.
(** vehicle.py 344-349, overrule_state *)
Definition overrule_state (s : list R) (w : world) : world :=
  mkW (now w) (dep_now w) (iteration0 w) (start_time w)
      (option_map (set_last (fun c => mkC (c_time c) s (c_input c) (c_dinput c))) (log w)) (plan w)
      s (p_input w) (obstacles w).
(** vehicle.py 351-357, overrule_input without dinput *)
Definition overrule_input (u : list R) (w : world) : world :=
  mkW (now w) (dep_now w) (iteration0 w) (start_time w)
      (option_map (set_last (fun c => mkC (c_time c) (c_state c) u (c_dinput c))) (log w)) (plan w)
      (p_state w) u (obstacles w).
(** simulator.py 139-143 *)
Definition hard_stop (g : settings) (t : Q) (e : list R) (w : world) : option world :=
  match simulate_for g (Some t) w with
  | None => None
  | Some w' => Some (overrule_input (repeat 0 (length (p_input w')))
                       (overrule_state (vadd (c_state (latest w')) e) w'))
  end.
(** simulator.py 118-119 with deployer.py 39-71: plan once from the present
    state *)
Definition plan_once (g : settings) (a : answer) (w : world) : option world :=
  match prepared g (reset w) with
  | None => None
  | Some w1 => deployed g a w1
  end.
(** simulator.py 113-137, with or without a hard stop (its time and the
    perturbation of the state) *)
Definition run_once (g : settings) (hard : option (Q * list R)) (a : answer) (w : world) : option world :=
  match plan_once g a w with
  | None => None
  | Some w2 =>
    match (match hard with
           | None => simulate_for g None w2
           | Some (t, e) => hard_stop g t e w2
           end) with
    | None => None
    | Some w3 => Some (tick g (c_time (latest w3) - now w3) w3)
    end
  end.

(* ---------- the lists of an environment ---------- *)

(** obstacles: identity and dimension.  What add_obstacle gets: an obstacle or
    a list of such arguments; environment.py 76-80 *)
Record obst := mkObst { ob_id : nat; ob_dim : nat }.
(* with the above, environment.py 76-80 *)
Inductive nested := One (o : obst) | Many (l : list nested).
(** environment.py 36-57: a room: its dimension, and position and orientation
    where the user gives them; the obstacles that fill_room sets (line 97) *)
Record room := mkRoom { rm_id : nat; rm_dim : nat; rm_pos : option (list R); rm_orient : option (list R);
                        rm_obst : option (list obst) }.
(** environment.py 36-61 *)
Record envir := mkE { e_rooms : list room; e_dim : nat; e_obst : list obst; e_n : nat }.

(** environment.py 76-91: None is the ValueError for a solid in the plane *)
Fixpoint add_obstacle (a : nested) (e : envir) : option envir :=
  match a with
  | Many l =>
    (fix add_all (l : list nested) (e : envir) : option envir :=
       match l with
       | [] => Some e
       | x :: r => match add_obstacle x e with None => None | Some e' => add_all r e' end
       end) l e
  | One o =>
    if ((ob_dim o =? 3) && (e_dim e =? 2))%nat%bool then None
    else Some (mkE (e_rooms e) (e_dim e) (e_obst e ++ [o]) (S (e_n e)))
  end.
(** environment.py 41-56: defaults of one room; an angle is a list of one number *)
Definition complete (n : nat) (r : room) : option room :=
  if negb (rm_dim r =? n)%nat then None
  else
    let pos := match rm_pos r with Some p => p | None => repeat 0 n end in
    match rm_orient r with
    | Some o => Some (mkRoom (rm_id r) (rm_dim r) (Some pos) (Some o) (rm_obst r))
    | None =>
      if (n =? 2)%nat then Some (mkRoom (rm_id r) (rm_dim r) (Some pos) (Some [0]) (rm_obst r))
      else if (n =? 3)%nat then Some (mkRoom (rm_id r) (rm_dim r) (Some pos) (Some [0; 0; 0]) (rm_obst r))
      else None
    end.
(* with the above, environment.py 41-56 *)
Fixpoint complete_all (n : nat) (rs : list room) : option (list room) :=
  match rs with
  | [] => Some []
  | r :: rest => match complete n r, complete_all n rest with
                 | Some r', Some rest' => Some (r' :: rest')
                 | _, _ => None
                 end
  end.
(** environment.py 31-61; an empty list of rooms has no room[0] (line 40) *)
Definition environment (rooms : list room) (obs : list nested) : option envir :=
  match rooms with
  | [] => None
  | r :: _ =>
    match complete_all (rm_dim r) rooms with
    | None => None
    | Some rs => add_obstacle (Many obs) (mkE rs (rm_dim r) [] 0)
    end
  end.
(** self.room[idx]['obstacles'] = obstacles, idx the first such room; None is
    the ValueError of list.index; environment.py 96-97 *)
Fixpoint put_obst (id : nat) (os : list obst) (rs : list room) : option (list room) :=
  match rs with
  | [] => None
  | r :: rest =>
    if (rm_id r =? id)%nat then Some (mkRoom (rm_id r) (rm_dim r) (rm_pos r) (rm_orient r) (Some os) :: rest)
    else option_map (cons r) (put_obst id os rest)
  end.
(** environment.py 98-100: n_obs is not updated *)
Definition add_new (l : list obst) (o : obst) : list obst :=
  if existsb (fun x => (ob_id x =? ob_id o)%nat) l then l else l ++ [o].
(** environment.py 93-100 *)
Definition fill_room (id : nat) (os : list obst) (e : envir) : option envir :=
  match put_obst id os (e_rooms e) with
  | None => None
  | Some rs => Some (mkE rs (e_dim e) (fold_left add_new os (e_obst e)) (e_n e))
  end.
(** environment.py 119-122: the obstacles that are avoided in a room *)
Definition to_avoid (e : envir) (r : room) : list obst :=
  match rm_obst r with Some os => os | None => e_obst e end.
(** environment.py 67-70: new obstacles, the same rooms; fresh gives the number
    of the copy of an object *)
Definition copy (fresh : nat -> nat) (e : envir) : option envir :=
  environment (e_rooms e) (map (fun o => One (mkObst (fresh (ob_id o)) (ob_dim o))) (e_obst e)).
