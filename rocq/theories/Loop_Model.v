(** The closed loop of a simulation: Simulator.update calls Deployer.update
    (predict, solve, store), the problem is simulated for one update time, the
    stop criterion is evaluated and the clock advances.  Modelled for a
    FixedTPoint2point problem with one vehicle of the holonomic kind (state =
    position, input = velocity; holonomic.py, and with one or three components
    holonomic1d.py and holonomic3d.py).
    Sources: omgtools/execution/simulator.py, omgtools/execution/deployer.py,
    omgtools/problems/problem.py, omgtools/problems/point2point.py,
    omgtools/vehicles/vehicle.py, omgtools/vehicles/holonomic.py,
    omgtools/environment/environment.py, omgtools/environment/obstacle.py.

    Simplifications.  Times are exact rationals, signals exact reals.  The
    solver is not modelled: its answer is an argument of every update, and
    [accepted] says which constraints an answer satisfies that the solver
    reports as feasible.  The arrays of a dictionary of signals all have the
    same number of columns, so a dictionary is a list of columns.  scipy's
    splev is the de Boor recursion on the knot interval that its search loop
    finds; odeint solves exactly.  The options 1storder_delay and
    input_disturbance are off (their defaults), obstacles do not bounce and
    are avoided (the defaults).  Plotting and the storage of trajectories for
    plots are left out.  An IndexError is None. *)
From Coq Require Import String Reals QArith Qreals ZArith List Bool Arith.
From Verif Require Import Spline_Model Concat_Model Vehicle_Model Lift_Model.
From Verif Require Timing_Model Obst_Model.
Import ListNotations.
Local Open Scope R_scope.

(* ---------- sampling ---------- *)

(** the search loop of splev: from interval [j] upwards while the next knot is
    not beyond x, at most [fuel] steps (up to the last interval of the domain);
    spline_extra.py 406-410 *)
Fixpoint find_interval (ks : list R) (x : R) (j fuel : nat) : nat :=
  match fuel with
  | O => j
  | S f => if Rleb (nth (j + 1) ks 0) x then find_interval ks x (j + 1) f else j
  end.
(** de Boor's recursion, stage r, entry j; spline_extra.py 406-410 *)
Fixpoint de_boor (ks c : list R) (p : nat) (x : R) (r j : nat) {struct r} : R :=
  match r with
  | O => nth j c 0
  | S r' =>
    let a := (x - nth j ks 0) / (nth (j + p - r') ks 0 - nth j ks 0) in
    (1 - a) * de_boor ks c p x r' (j - 1) + a * de_boor ks c p x r' j
  end.
(** spline_extra.py 406-410: one value of sample_splines *)
Definition splev (s : bspline) (x : R) : R :=
  let p := degree (sbasis s) in
  let ks := knots (sbasis s) in
  de_boor ks (coeffs s) p x p (find_interval ks x p (length ks - 2 * p - 2)).

(** one column of the signals; vehicle.py 271-276, holonomic.py 165-175 *)
Record column := mkC { c_time : Q; c_state : list R; c_input : list R; c_dinput : list R }.
(** a column that is not there; used by predict, vehicle.py 302-337 *)
Definition no_column : column := mkC 0 [] [] [].

(** holonomic.py 165-175 (also holonomic1d.py 103-110, holonomic3d.py 135-146)
    at one time, for splines in seconds *)
Definition signals_at (ss : list bspline) (time t : Q) : column :=
  mkC time (map (fun s => splev s (Q2R t)) ss)
           (map (fun s => splev (derivative s 1) (Q2R t)) ss)
           (map (fun s => splev (derivative s 2) (Q2R t)) ss).

(* ---------- settings and state ---------- *)

(** sample_time and update_time of the simulator (handed on to the deployer,
    simulator.py 27-33), horizon_time and the number of knot intervals
    (point2point.py 128-135), the number of splines, the options
    ideal_prediction and ideal_update (vehicle.py 70-75) *)
Record settings := mkSet {
  ts : Q; upd : Q; horizon : Q; intervals : Z; dim : nat;
  ideal_prediction : bool; ideal_update : bool }.
(** point2point.py 134-135 *)
Definition knot_time (g : settings) : Q := Timing_Model.knot_time3 (horizon g) (intervals g).

(** an obstacle that does not rotate: corners, radius and angle, scheduled
    jumps and recorded motion per axis; obstacle.py 246-264 *)
Record obstacle := mkOb {
  o_chk : list (R * R); o_rad : R; o_theta : R;
  o_evx : list Obst_Model.event; o_evy : list Obst_Model.event;
  o_lx : Obst_Model.olog; o_ly : Obst_Model.olog }.

(** the attributes that the loop reads and writes: current_time of the
    simulator and of the deployer, iteration0, start_time of the problem, the
    vehicle's signals, trajectories and prediction (state and input), the
    obstacles; simulator.py 92-111, deployer.py 43-71 *)
Record world := mkW {
  now : Q; dep_now : Q; iteration0 : bool; start_time : Q;
  log : option (list column); plan : option (list column);
  p_state : list R; p_input : list R; obstacles : list obstacle }.
(** simulator.py 27-33 and 39-41, deployer.py 26-41, holonomic.py 107-113: before the
    first update, with the initial conditions of the vehicle *)
Definition world0 (state input : list R) (obs : list obstacle) : world :=
  mkW 0 0 true 0 None None state input obs.

(* ---------- the deployer ---------- *)

(** Python's l[z], z possibly negative; used by predict, vehicle.py 302-337 *)
Definition py_nth {A} (l : list A) (z : Z) : option A :=
  let k := if (z <? 0)%Z then (Z.of_nat (length l) + z)%Z else z in
  if (k <? 0)%Z then None else nth_error l (Z.to_nat k).
(** Python's l[z:]; used by predict, vehicle.py 302-337 *)
Definition py_from {A} (l : list A) (z : Z) : list A :=
  skipn (Z.to_nat (if (z <? 0)%Z then Z.of_nat (length l) + z else z)) l.

(** componentwise sum; used by integrate, vehicle.py 412-424 *)
Definition vadd (u v : list R) : list R := map (fun p => fst p + snd p) (combine u v).
(** componentwise product with a number; used by integrate, vehicle.py 412-424 *)
Definition vscale (c : R) (u : list R) : list R := map (fun x => c * x) u.
(** vehicle.py 412-424 with ode = input (holonomic.py 180-181): n steps from
    state s under the linear interpolation of the inputs us (the last input is
    kept beyond the end).  The exact solution over one sample adds the mean of
    the two inputs times the sample time. *)
Fixpoint integrate (h : R) (n : nat) (s : list R) (us : list (list R)) : list (list R) :=
  match n with
  | O => [s]
  | S n' =>
    let u := hd [] us in
    let r := match us with _ :: (v :: r') => v :: r' | _ => us end in
    s :: integrate h n' (vadd s (vscale (h / 2) (vadd u (hd [] r)))) r
  end.

(** deployer.py 44-55: the update time of this call *)
Definition dep_update (g : settings) (w : world) : Q :=
  match log w, plan w with
  | Some l, _ => Timing_Model.shortened (ts g) (upd g) (c_time (last l no_column) - dep_now w)
  | None, Some p => Timing_Model.shortened (ts g) (upd g) (c_time (last p no_column) - dep_now w)
  | None, None => upd g
  end.
(** deployer.py 56-66: the delay in samples *)
Definition dep_delay (g : settings) (w : world) (u : Q) : Z :=
  match plan w with
  | Some p => Timing_Model.delay (ts g) u (dep_now w) (now w) (c_time (last p no_column) - dep_now w) (iteration0 w)
  | None => if iteration0 w then 0%Z else Timing_Model.pint ((now w - dep_now w - u) / ts g)
  end.

(** problem.py 160-163 and vehicle.py 302-337, called without states and
    inputs (simulator.py 94): at the start time the states are enforced, which
    leaves the initial conditions as they are as long as nothing was simulated *)
Definition predict (g : settings) (w : world) (start u : Q) (delay : Z) : option (list R * list R) :=
  if Qeq_bool (now w) start then
    match log w with
    | Some l => Some (c_state (last l no_column), repeat 0 (dim g))
    | None => Some (p_state w, p_input w)
    end
  else
    let n := Timing_Model.n_samp u (ts g) in
    match plan w with
    | None => None
    | Some p =>
      match py_nth p (n + delay) with
      | None => None
      | Some c =>
        if ideal_prediction g then Some (c_state c, c_input c)
        else match log w with
             | None => None
             | Some l =>
               match py_nth l (- n - 1) with
               | None => None
               | Some c0 =>
                 let st := integrate (Q2R (ts g)) (Z.to_nat (Timing_Model.pint (u / ts g))) (c_state c0)
                             (map c_input (py_from p delay)) in
                 Some (last st [], c_input c)
               end
             end
      end
    end.

(** point2point.py 174-182 and 213-222: the time within the first knot
    interval (init_time is None, point2point.py 42) *)
Definition rel (g : settings) (t start : Q) : Q := Timing_Model.rel_time (knot_time g) (t - start) None.

(** the answer of the solver: the vehicle's splines over normalised time, the
    splines g of the terminal constraints (point2point.py 160-166), and for
    every obstacle the hyperplane a0, a1, b and the slack eps
    (environment.py 133-136, vehicle.py 138-140) *)
Record answer := mkA { path : nat -> bspline; slack : nat -> bspline; plane : nat -> nat -> bspline }.

(** point2point.py 213-229 with vehicle.py 250-276: the samples of the splines
    from now to the end of the horizon *)
Definition store (g : settings) (a : answer) (t start : Q) : option (list column) :=
  match store_splines [map (path a) (seq 0 (dim g))] [Q2R (horizon g)] None 3 with
  | None => None
  | Some ss =>
    let axis := Timing_Model.time_axis (horizon g) (rel g t start) (ts g) in
    Some (map (fun s => signals_at ss (s - hd 0%Q axis + t) s) axis)
  end.

(** deployer.py 43-71 up to and including predict: the world in which the
    problem is solved *)
Definition prepared (g : settings) (w : world) : option world :=
  let u := dep_update g w in
  let d := dep_delay g w u in
  let start := if iteration0 w then now w else start_time w in
  match predict g w start u d with
  | None => None
  | Some (s, i) => Some (mkW (now w) (dep_now w) false start (log w) (plan w) s i (obstacles w))
  end.
(** deployer.py 68-71: store and remember the time *)
Definition deployed (g : settings) (a : answer) (w : world) : option world :=
  match store g a (now w) (start_time w) with
  | None => None
  | Some p => Some (mkW (now w) (now w) (iteration0 w) (start_time w) (log w) (Some p) (p_state w) (p_input w)
                        (obstacles w))
  end.

(* ---------- simulation ---------- *)

(** a[:, 1:n+1]; used by simulate_vehicle, vehicle.py 359-390 *)
Definition cols {A} (n : nat) (l : list A) : list A := firstn n (skipn 1 l).

(** vehicle.py 359-390: the first time the first column is taken over; the
    planned columns are appended, with the states that result from the inputs
    unless ideal_update is set *)
Definition simulate_vehicle (g : settings) (t : Q) (w : world) : option (list column) :=
  match plan w with
  | None => None
  | Some p =>
    let l := match log w with Some l => l | None => firstn 1 p end in
    let n := Z.to_nat (Timing_Model.n_samp t (ts g)) in
    if ideal_update g then Some (l ++ cols n p)
    else
      let st := integrate (Q2R (ts g)) (Z.to_nat (Timing_Model.pint (t / ts g)))
                  (c_state (last l no_column)) (map c_input p) in
      Some (l ++ map (fun q => mkC (c_time (fst q)) (snd q) (c_input (fst q)) (c_dinput (fst q)))
                     (combine (cols n p) (cols n st)))
  end.

(** environment.py 190-195 without bouncing, obstacle.py 246-264 *)
Definition simulate_obstacle (g : settings) (t : Q) (o : obstacle) : obstacle :=
  let n := Z.to_nat (Timing_Model.n_samp t (ts g)) in
  mkOb (o_chk o) (o_rad o) (o_theta o) (o_evx o) (o_evy o)
       (Obst_Model.simulate (o_evx o) n (Q2R (ts g)) (o_lx o))
       (Obst_Model.simulate (o_evy o) n (Q2R (ts g)) (o_ly o)).

(** point2point.py 235-244 with problem.py 187-192 *)
Definition simulated (g : settings) (w : world) : option world :=
  let t := Timing_Model.sim_time (horizon g) (rel g (now w) (start_time w)) (upd g) in
  match simulate_vehicle g t w with
  | None => None
  | Some l => Some (mkW (now w) (dep_now w) (iteration0 w) (start_time w) (Some l) (plan w) (p_state w) (p_input w)
                        (map (simulate_obstacle g t) (obstacles w)))
  end.

(** simulator.py 92-99 without the stop criterion *)
Definition update (g : settings) (a : answer) (w : world) : option world :=
  match prepared g w with
  | None => None
  | Some w1 =>
    match deployed g a w1 with
    | None => None
    | Some w2 => simulated g w2
    end
  end.
(** simulator.py 45-51 and 105-107: the clock after an update in which the
    vehicle did not stop *)
Definition advance (g : settings) (w : world) : world :=
  let d := match log w with Some l => (c_time (last l no_column) - now w)%Q | None => 0%Q end in
  mkW (now w + Timing_Model.chosen (upd g) (Timing_Model.run_arg (ts g) (upd g) false d))
      (dep_now w) (iteration0 w) (start_time w) (log w) (plan w) (p_state w) (p_input w) (obstacles w).
(** simulator.py 42-51: a pass of the loop that does not stop *)
Definition pass (g : settings) (a : answer) (w : world) : option world :=
  match update g a w with None => None | Some w' => Some (advance g w') end.
(** simulator.py 39-51: the passes of run, one answer per pass *)
Fixpoint passes (g : settings) (as_ : list answer) (w : world) : option world :=
  match as_ with
  | [] => Some w
  | a :: r => match pass g a w with None => None | Some w' => passes g r w' end
  end.
(** point2point.py 246-256: what one update adds to the reported objective;
    u is the simulated time *)
Definition part_objective (g : settings) (a : answer) (t start u : Q) : R :=
  let T := Q2R (horizon g) in
  let t0 := Q2R (rel g t start) / T in
  let t1 := t0 + Q2R u / T in
  fold_left (fun acc i => acc + T * definite_integral (slack a i) t0 t1) (seq 0 (dim g)) 0.
(** point2point.py 130 and 243-256: the objective accumulated over the passes *)
Fixpoint objective (g : settings) (as_ : list answer) (w : world) (acc : R) : option R :=
  match as_ with
  | [] => Some acc
  | a :: r =>
    match prepared g w, pass g a w with
    | Some w1, Some w' =>
      objective g r w' (acc + part_objective g a (now w1) (start_time w1)
        (Timing_Model.sim_time (horizon g) (rel g (now w1) (start_time w1)) (upd g)))
    | _, _ => None
    end
  end.
(** point2point.py 98-102 with holonomic.py 145-151 *)
Definition stop_criterium (tol : R) (goal : list R) (w : world) : bool :=
  match log w with
  | None => false
  | Some l => let c := last l no_column in arrived tol (vsub (c_state c) goal) (c_input c)
  end.
(** simulator.py 39-53: run with at most as many passes as there are answers;
    the world after the update in which the vehicle stopped, and the number of
    passes before it.  None where an update raises or the answers are used up
    before the vehicle stops. *)
Fixpoint run (g : settings) (tol : R) (goal : list R) (as_ : list answer) (w : world) : option (world * nat) :=
  match as_ with
  | [] => None
  | a :: r =>
    match update g a w with
    | None => None
    | Some w' => if stop_criterium tol goal w' then Some (w', 0%nat)
                 else match run g tol goal r (advance g w') with
                      | None => None
                      | Some (w2, k) => Some (w2, S k)
                      end
    end
  end.

(* ---------- the constraints of one problem ---------- *)

(** the splines of the constraints on the vehicle: its own and those of the
    terminal constraints (from number 10); point2point.py 160-166 *)
Definition own (a : answer) : nat -> bspline :=
  fun i => if (i <? 10)%nat then path a i else slack a (i - 10).
(** the splines of the constraints for obstacle number k: vehicle 0, 1,
    hyperplane 2, 3, 4, slack 5, predicted position of the obstacle 6, 7
    (obstacle.py 83-111, with the parameters of set_parameters, obstacle.py 142-155) *)
Definition seen (a : answer) (k : nat) (o : obstacle) (t T : R) : nat -> bspline := fun i =>
  let x := last (Obst_Model.lstate (o_lx o)) Obst_Model.ost0 in
  let y := last (Obst_Model.lstate (o_ly o)) Obst_Model.ost0 in
  match i with
  | 0%nat | 1%nat => path a i
  | 6%nat => Obst_Model.pos_spline (Obst_Model.ox x) (Obst_Model.ov x) (Obst_Model.oa x) t T
  | 7%nat => Obst_Model.pos_spline (Obst_Model.ox y) (Obst_Model.ov y) (Obst_Model.oa y) t T
  | _ => plane a k (i - 2)
  end.
(** vehicle.py 138-146: the slack, 0 without a safety distance *)
Definition eps_sx (sd : R) : sx := if Rltb 0 sd then SV 5 0 else SN 0.
(** the three kinds of constraints for one obstacle: vehicle.py 147-158,
    obstacle.py 334-343, environment.py 137-138 *)
Definition veh_side (rv sd : R) (c : R * R) : sx :=
  veh_sx (SV 2 0) (SV 3 0) (SV 4 0) (fst c) (snd c) rv (SN 1) sd (eps_sx sd) (SV 0 0) (SV 1 0) (SN 0) 0.
(* with the above, obstacle.py 334-343 and 292-298 *)
Definition obs_side (o : obstacle) (c : R * R) : sx :=
  obs_sx (SV 2 0) (SV 3 0) (SV 4 0) (fst c) (snd c) (o_rad o) (SV 6 0) (SV 7 0) (SN (cos (o_theta o)))
    (SN (sin (o_theta o))) (SN 1).
(* with the above, environment.py 137-145, vehicle.py 134-158 *)
Definition avoid_cons (vchk : list (R * R)) (rv sd : R) (o : obstacle) : list con :=
  (le0 (norm_sx (SV 2 0) (SV 3 0)) :: map (fun c => le0 (veh_side rv sd c)) vchk ++
   map (fun c => le0 (obs_side o c)) (o_chk o)) ++
  (if Rltb 0 sd then eps_cons sd (SV 5 0) else []).
(** point2point.py 160-166: the splines g bound the distance to the goal *)
Definition goal_cons (i : nat) (goal : R) : list con :=
  [ le0 (SV i 0 - SN goal - SV (10 + i) 0); le0 (- SV i 0 + SN goal - SV (10 + i) 0) ]%sx.
(** holonomic.py 87-96 for d components (holonomic1d.py 50-56,
    holonomic3d.py 73-82) *)
Definition init_cons (d : nat) (state input : list R) (T : R) : list (list sx) :=
  map (fun i => [SV i 0; SN (nth i state 0)]) (seq 0 d) ++
  map (fun i => [SV i 1; SN (T * nth i input 0)]) (seq 0 d).

(** what an answer satisfies that the solver accepts in the prepared world w:
    the constraints of the vehicle (limits), the initial conditions
    (point2point.py 64-70), the terminal constraints (point2point.py 160-166;
    those on the end of the horizon, 167-171, are left out: nothing below uses
    them),
    collision avoidance for every obstacle (environment.py 102-146) *)
Definition accepted (g : settings) (tol : R) (limits : list con) (goal : list R)
    (vchk : list (R * R)) (rv sd : R) (w : world) (a : answer) : Prop :=
  let T := Q2R (horizon g) in
  let t := Q2R (rel g (now w) (start_time w)) in
  solved tol (own a) limits /\
  starts tol (own a) (t / T) (init_cons (dim g) (p_state w) (p_input w) T) /\
  (forall i, (i < dim g)%nat -> solved tol (own a) (goal_cons i (nth i goal 0))) /\
  (forall k o, nth_error (obstacles w) k = Some o ->
     solved tol (seen a k o t T) (avoid_cons vchk rv sd o)).
