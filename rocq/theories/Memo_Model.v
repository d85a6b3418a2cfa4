(** What a simulation keeps: the columns of the signals of a vehicle, the
    trajectories and predictions that are stored with them, and how a fleet
    passes on states, inputs and conditions to its vehicles.
    Sources: omgtools/vehicles/vehicle.py, omgtools/vehicles/fleet.py,
    omgtools/problems/problem.py.

    Simplifications.  A column of the trajectories of a plan is identified by
    the plan and its index; a plan has n columns.  All rows of the signals but
    state, input and pose grow like the time (vehicle.py 363-374); input and pose
    grow with time and state.  Simulated times are not negative.  The entries of
    traj_storage, traj_storage_kn and pred_storage grow by the same numbers of
    entries for every key (vehicle.py 397-399), so there is one list; its
    entries are the plans.  Objects that are stored are not changed afterwards:
    predict and store make new arrays.  The options input_disturbance and
    1storder_delay are left out.  The vehicles of a fleet are of any type, with
    the setter as a function; setters that raise are left out. *)
From Coq Require Import QArith ZArith List Bool Arith.
From Verif Require Timing_Model.
Import ListNotations.

(* ---------- one vehicle ---------- *)

(** a column of a plan: the plan and the index; vehicle.py 359-374 *)
Definition label := (nat * nat)%type.
(** the signals (None before the first simulation, line 361) as columns of time
    and of state, and the stored plans; vehicle.py 359-399 *)
Record memory := mkM { m_time : option (list label); m_state : option (list label); m_store : list nat }.
(** the trajectories of plan p with n columns; vehicle.py 364 *)
Definition columns (p n : nat) : list label := map (fun j => (p, j)) (seq 0 n).
(** a[:, 1:n+1]; vehicle.py 369, 374 *)
Definition cut (n : nat) (l : list label) : list label := firstn n (skipn 1 l).
(** vehicle.py 361-364 *)
Definition begun (m : option (list label)) (p n : nat) : list label :=
  match m with Some l => l | None => firstn 1 (columns p n) end.
(** vehicle.py 412-423: the columns that integrate_ode returns *)
Definition integrated_columns (ts t : Q) (p : nat) : list label :=
  columns p (Z.to_nat (Timing_Model.pint (t / ts) + 1)).
(** vehicle.py 452-456, one key *)
Definition add_to_memory {A} (mem : list A) (x : A) (n : nat) : list A := mem ++ map (fun _ => x) (seq 0 n).
(** vehicle.py 359-399: sim is to_simulate, ideal the option ideal_update *)
Definition simulate (sim ideal : bool) (ts t : Q) (p n : nat) (m : memory) : memory :=
  let k := Z.to_nat (Timing_Model.n_samp t ts) in
  let r := Z.to_nat (Timing_Model.pint (t / ts)) in
  let store := add_to_memory (m_store m) p r in
  if sim then
    mkM (Some (begun (m_time m) p n ++ cut k (columns p n)))
        (Some (begun (m_state m) p n ++ cut k (if ideal then columns p n else integrated_columns ts t p)))
        store
  else mkM (m_time m) (m_state m) store.
(** the simulations of a run (vehicle.py 359-399, called by problem.py 187-189):
    plan, number of columns and simulated time *)
Fixpoint session (sim ideal : bool) (ts : Q) (calls : list (nat * nat * Q)) (m : memory) : memory :=
  match calls with
  | [] => m
  | (p, n, t) :: r => session sim ideal ts r (simulate sim ideal ts t p n m)
  end.
(** before the first simulation; vehicle.py 361, 392 *)
Definition no_memory : memory := mkM None None [].

(* ---------- fleets ---------- *)

(** for x, vehicle in zip(xs, self.vehicles): vehicle.f(x); fleet.py 109-119 *)
Fixpoint pass_on {X V} (f : X -> V -> V) (xs : list X) (vs : list V) : list V :=
  match xs, vs with
  | x :: xs', v :: vs' => f x v :: pass_on f xs' vs'
  | _, _ => vs
  end.
(** fleet.py 103-107 *)
Definition set_initial {S I V} (f : S -> option I -> V -> V) (states : list S) (inputs : option (list (option I))) (vs : list V) : list V :=
  let ins := match inputs with Some l => l | None => map (fun _ => None) states end in
  pass_on (fun p => f (fst p) (snd p)) (combine states ins) vs.
(** fleets, and what a problem is given: vehicles and fleets; fleet.py 25-34, 39-44 *)
Record fleet := mkF { f_vehicles : list nat; f_circular : bool }.
(* with the above, fleet.py 25-34 *)
Inductive item := IVehicle (v : nat) | IFleet (f : fleet) | IOther.
(* with the above, fleet.py 25-34 *)
Inductive argument := AItem (i : item) | AList (l : list item).
(** the vehicles of a list that holds only vehicles; fleet.py 30 *)
Fixpoint vehicles_of (l : list item) : option (list nat) :=
  match l with
  | [] => Some []
  | IVehicle v :: r => option_map (cons v) (vehicles_of r)
  | _ => None
  end.
(** fleet.py 25-34 with problem.py 34, where None is not a pair; lists that start
    with a vehicle and hold something else are left out (None) *)
Definition get_fleet_vehicles (a : argument) : option (fleet * list nat) :=
  match a with
  | AItem (IFleet f) => Some (f, f_vehicles f)
  | AItem (IVehicle v) => Some (mkF [v] true, [v])
  | AItem IOther => None
  | AList [] => None
  | AList (IVehicle v :: r) => match vehicles_of (IVehicle v :: r) with Some l => Some (mkF l true, l) | None => None end
  | AList (IFleet f :: r) => Some (f, f_vehicles f)
  | AList (IOther :: r) => None
  end.
