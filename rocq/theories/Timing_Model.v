(* Time bookkeeping of the simulator, the deployer, the fixed-time problem and
   the vehicle logs.  Times are exact rationals instead of floats. *)
Require Import QArith Qround ZArith List Bool String.
Require Import Verif.Grid_Model.
Import ListNotations.
Open Scope Q_scope.

(* int(q): truncation towards zero; used by n_samp, simulator.py 108 *)
Definition pint (q : Q) : Z :=
  if Qle_bool 0 q then Qfloor q else Z.opp (Qfloor (- q)).

(* np.round(q, 6); used by n_samp, simulator.py 108 *)
Definition round6 (q : Q) : Q := inject_Z (py_round (q * 1000000)) / 1000000.

(* a % b for b > 0; used by rel_time, point2point.py 174-182 *)
Definition pmod (a b : Q) : Q := a - b * inject_Z (Qfloor (a / b)).

(* int(np.round(t/sample_time, 6)): simulator.py 108, vehicle.py 365,
   point2point.py 225-226, deployer.py 65 *)
Definition n_samp (t ts : Q) : Z := pint (round6 (t / ts)).

(* np.linspace(a, b, n) for n >= 0; used by update_timing, simulator.py 105-111 *)
Definition linspace (a b : Q) (n : nat) : list Q :=
  match n with
  | 1%nat => [a]
  | _ => map (fun i => a + inject_Z (Z.of_nat i) * ((b - a) / inject_Z (Z.of_nat n - 1)))
             (seq 0 n)
  end.

(* ---- Simulator (simulator.py) ---- *)

(* the attributes current_time and time; used by reset_timing, simulator.py 101-103 *)
Record sim := mkSim { now : Q; times : list Q }.

(* reset_timing, simulator.py 101-103 *)
Definition reset_timing : sim := mkSim 0 [0].

(* `self.update_time if not update_time else update_time`, simulator.py 106:
   both None and 0 select the default *)
Definition chosen (upd : Q) (u : option Q) : Q :=
  match u with
  | None => upd
  | Some v => if Qeq_bool v 0 then upd else v
  end.

(* update_timing, simulator.py 105-111; np.linspace raises for a negative
   number of samples *)
Definition update_timing (ts upd : Q) (u : option Q) (s : sim) : option sim :=
  let u := chosen upd u in
  let n := n_samp u ts in
  if Z.ltb n 0 then None
  else let l := last (times s) 0 in
       Some (mkSim (now s + u)
                   (times s ++ linspace (l + ts) (l + inject_Z n * ts) (Z.to_nat n))).

(* any sequence of timing updates: run, step, run_once and sleep only touch
   the time base through update_timing; with simulator.py 105-111 *)
Fixpoint timing (ts upd : Q) (us : list (option Q)) (s : sim) : option sim :=
  match us with
  | [] => Some s
  | u :: r => match update_timing ts upd u s with
              | None => None
              | Some s' => timing ts upd r s'
              end
  end.

(* the argument of update_timing in the loop of run, simulator.py 45-51; d is
   signals['time'][-1] - current_time after the simulation.  The comparison
   binds looser than `or`, so a true stop is compared as the number 1. *)
Definition run_arg (ts upd : Q) (stop : bool) (d : Q) : option Q :=
  if Qltb ts (if stop then 1 else upd - d)
  then Some (Qmax2 0 (d - ts))
  else None.

(* one pass of the loop of run; with simulator.py 45-51 *)
Definition run_iter (ts upd : Q) (stop : bool) (d : Q) (s : sim) : option sim :=
  update_timing ts upd (run_arg ts upd stop d) s.

(* k passes in which the vehicle moved for exactly one update and did not stop; with simulator.py 45-51 *)
Fixpoint plain_runs (ts upd : Q) (k : nat) (s : sim) : option sim :=
  match k with
  | O => Some s
  | S k => match run_iter ts upd false upd s with
           | Some s' => plain_runs ts upd k s'
           | None => None
           end
  end.

(* time2index, simulator.py 149-154 *)
Fixpoint time2index_from (ts q : Q) (l : list Q) (k : nat) : option nat :=
  match l with
  | [] => None
  | t :: r =>
      let t := round6 t in
      if Qle_bool t q && Qltb q (t + ts) && Qle_bool (q - t) (t + ts - q)
      then Some k else time2index_from ts q r (S k)
  end.
(* with the above, simulator.py 149-154 *)
Definition time2index (ts q : Q) (l : list Q) : option nat := time2index_from ts q l 0.

(* ---- Deployer.update (deployer.py 43-71), the part on times ---- *)

(* deployer.py 48-50 and 53-55: shorten the update time when less signal is left;
   rem = signals['time'][-1] - self.current_time *)
Definition shortened (ts upd rem : Q) : Q :=
  if Qle_bool ts (round4 (upd - rem)) then rem else upd.

(* deployer.py 56-66: the delay in samples handed to predict; prev is the time of
   the previous call, rem = trajectories['time'][-1] - prev *)
Definition delay (ts upd prev cur rem : Q) (first : bool) : Z :=
  let d := if first then 0%Z else pint ((cur - prev - upd) / ts) in
  if Z.ltb (n_samp rem ts) (d + n_samp upd ts) then 0%Z else d.

(* Vehicle.predict with ideal_prediction, vehicle.py 322-325: the column of
   the stored trajectories taken as predicted state *)
Definition predict_column (ts upd prev cur rem : Q) (first : bool) : Z :=
  (n_samp upd ts + delay ts upd prev cur rem first)%Z.

(* ---- FixedTPoint2point (point2point.py) ---- *)

(* __init__, point2point.py 134-135, Python 3: true division *)
Definition knot_time3 (h : Q) (ki : Z) : Q :=
  inject_Z (pint (h * 1000)) / inject_Z ki / 1000.
(* the same with Python 2: int/int is floor division; with point2point.py 134-135 *)
Definition knot_time2 (h : Q) (ki : Z) : Q :=
  inject_Z (pint (h * 1000) / ki) / 1000.

(* set_parameters point2point.py 174-182, store 215-222, simulate 236-241: the relative time *)
Definition rel_time (kt t : Q) (init_time : option Q) : Q :=
  match init_time with
  | None => pmod (round6 t) kt
  | Some v => v
  end.

(* init_step point2point.py 187-198: interval index, and the new pair (current_time_prev,
   number of transformations done) *)
Definition interval (kt t : Q) : Z := pint (round6 (t / kt)).
(* with the above, point2point.py 187-198 *)
Definition init_step (kt : Q) (t : Q) (s : Q * nat) : Q * nat :=
  (t, if Z.ltb (interval kt (fst s)) (interval kt t) then S (snd s) else snd s).
(* with the above, point2point.py 187-198 *)
Definition init_steps (kt : Q) (ts : list Q) (s : Q * nat) : Q * nat :=
  fold_left (fun s t => init_step kt t s) ts s.

(* store point2point.py 224-227: the time axis on which the splines are sampled *)
Definition store_count (h rel ts : Q) : Z := (n_samp (h - rel) ts + 1)%Z.
(* with the above, point2point.py 224-227 *)
Definition time_axis (h rel ts : Q) : list Q :=
  linspace rel (rel + inject_Z (store_count h rel ts - 1) * ts)
           (Z.to_nat (store_count h rel ts)).
(* simulate point2point.py 241-242 *)
Definition sim_time (h rel t : Q) : Q := if Qltb (h - rel) t then h - rel else t.

(* ---- Vehicle logs (vehicle.py) ---- *)
Section Logs.
  (* C is the type of a column of a signal *)
  Context {C : Type}.

  (* a dictionary of signals; all vehicles return the same keys from
     splines2signals at every call, so the keys never change; used by applied_input, vehicle.py 375-380 *)
  Definition signals := list (string * list C).
(* with the above, vehicle.py 359-390 *)
  Fixpoint lookup (k : string) (d : signals) : list C :=
    match d with
    | [] => []
    | (k', v) :: r => if String.eqb k k' then v else lookup k r
    end.

  (* a[:, 1:n+1]; used by simulate, vehicle.py 359-390 *)
  Definition cols (n : Z) (l : list C) : list C := firstn (Z.to_nat n) (skipn 1 l).

  (* integrate_ode, vehicle.py 412-424: odeint evaluated on time_axis; flow
     stands for the solution from state0 under the interpolated input *)
  Definition integrate_ode (flow : C -> list C -> Q -> C) (st0 : C) (input : list C)
      (t ts : Q) : list C :=
    map (flow st0 input)
        (linspace 0 (inject_Z (pint (t / ts)) * ts) (Z.to_nat (pint (t / ts) + 1))).

  (* options ideal_update, input_disturbance, 1storder_delay with the
     functions they bring in; used by applied_input, vehicle.py 375-380 *)
  Record sim_opts := mkOpts {
    ideal_update : bool;
    disturbance : option (nat -> C -> C);
    first_order : option (C -> list C -> Q -> C);
    ode_flow : C -> list C -> Q -> C;
    to_pose : C -> C;
    blank : C
  }.

  (* add_disturbance, vehicle.py 433-450: input + disturbance, columnwise *)
  Definition add_disturbance (f : nat -> C -> C) (l : list C) : list C :=
    map (fun p => f (fst p) (snd p)) (combine (seq 0 (List.length l)) l).

  (* vehicle.py 375-380: the input that is applied *)
  Definition applied_input (o : sim_opts) (traj sig : signals) (t ts : Q) : list C :=
    let u := lookup "input" traj in
    let u := match disturbance o with Some f => add_disturbance f u | None => u end in
    match first_order o with
    | Some g => integrate_ode g (last (lookup "input" sig) (blank o)) u t ts
    | None => u
    end.

(* used by simulate, vehicle.py 359-390 *)
  Definition started (traj : signals) (sig : option signals) : signals :=
    match sig with
    | Some s => s
    | None => map (fun kv => (fst kv, firstn 1 (snd kv))) traj
    end.

  (* simulate, vehicle.py 359-390 (to_simulate true) *)
  Definition simulate (o : sim_opts) (traj : signals) (t ts : Q) (sig : option signals)
      : signals :=
    let s := started traj sig in
    let n := n_samp t ts in
    if ideal_update o
    then map (fun kv => (fst kv, snd kv ++ cols n (lookup (fst kv) traj))) s
    else
      let u := applied_input o traj s t ts in
      let st := integrate_ode (ode_flow o) (last (lookup "state" s) (blank o)) u t ts in
      map (fun kv => (fst kv, snd kv ++
             if String.eqb (fst kv) "input" then cols n u
             else if String.eqb (fst kv) "state" then cols n st
             else if String.eqb (fst kv) "pose" then map (to_pose o) (cols n st)
             else cols n (lookup (fst kv) traj))) s.

  (* the storage of trajectories: vehicle.py 391-399 and _add_to_memory 452-456,
     the number of entries under each key *)
  Definition stored (count : nat) (t ts : Q) : nat :=
    (count + Z.to_nat (pint (t / ts)))%nat.

(* with the above, vehicle.py 391-399 *)
  Definition sim_steps (ts : Q) (l : list (sim_opts * signals * Q)) (sig : option signals)
      : option signals :=
    fold_left (fun sg p => let '(o, traj, t) := p in Some (simulate o traj t ts sg)) l sig.
End Logs.
Arguments signals : clear implicits.
Arguments sim_opts : clear implicits.
