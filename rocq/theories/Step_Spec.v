(** Vocabulary for simulations by hand: what one plan leaves in the log, and
    lists of obstacles. *)
From Coq Require Import Reals QArith Qreals ZArith List Arith.
From Verif Require Import Spline_Model Vehicle_Model Loop_Model Loop_Spec Mission_Model Step_Model.
Import ListNotations.
Local Open Scope R_scope.

(** the horizon is N samples *)
Definition whole_horizon (g : settings) (N : nat) : Prop :=
  (0 < ts g)%Q /\ (1 <= N)%nat /\ (horizon g == inject_Z (Z.of_nat N) * ts g)%Q.

(** derivative o of component i of the plan, t seconds after its start *)
Definition plan_at (g : settings) (a : answer) (o i : nat) (t : R) : R :=
  call (derivative (path a i) o) (t / Q2R (horizon g)) / Q2R (horizon g) ^ o.

(** the columns of l follow the plan a from its start at time t0: inputs as
    planned, states as planned with ideal updates, otherwise the sum of the mean
    velocities of the samples added to the state x *)
Definition executes (g : settings) (a : answer) (t0 : Q) (x : list R) (l : list column) : Prop :=
  let h := Q2R (ts g) in
  forall j, (j < length l)%nat ->
    let c := nth j l no_column in
    (c_time c == t0 + inject_Z (Z.of_nat (S j)) * ts g)%Q /\
    c_input c = map (fun i => plan_at g a 1 i (INR (S j) * h)) (seq 0 (dim g)) /\
    c_dinput c = map (fun i => plan_at g a 2 i (INR (S j) * h)) (seq 0 (dim g)) /\
    c_state c = map (fun i =>
      if ideal_update g then plan_at g a 0 i (INR (S j) * h)
      else nth i x 0 + total (S j) (fun q => h * ((plan_at g a 1 i (INR q * h) + plan_at g a 1 i (INR (S q) * h)) / 2)))
      (seq 0 (dim g)).

(** the log before a plan is executed: what was recorded so far, or the first
    column of the plan *)
Definition before (g : settings) (a : answer) (w : world) (l0 : list column) : Prop :=
  log w = Some l0 \/
  log w = None /\ exists c, l0 = [c] /\ (c_time c == now w)%Q /\
    c_state c = map (fun i => plan_at g a 0 i 0) (seq 0 (dim g)) /\
    c_input c = map (fun i => plan_at g a 1 i 0) (seq 0 (dim g)).
(** what was recorded so far ends in a state of the vehicle *)
Definition wellformed (g : settings) (w : world) : Prop :=
  match log w with
  | None => True
  | Some l => l <> [] /\ length (c_state (last l no_column)) = dim g
  end.

(** the state and velocity that the problem starts from in the next run *)
Definition next_start (g : settings) (w : world) : option (list R * list R) :=
  match prepared g (reset w) with Some w1 => Some (p_state w1, p_input w1) | None => None end.

(** the times of a log advance by one sample from column to column *)
Definition evenly (h : Q) (l : list column) : Prop :=
  forall j, (S j < length l)%nat -> (c_time (nth (S j) l no_column) == c_time (nth j l no_column) + h)%Q.

(** the obstacles in an argument of add_obstacle, in order *)
Fixpoint flat (a : nested) : list obst :=
  match a with One o => [o] | Many l => flat_map flat l end.
(** an obstacle fits in a space of dimension n *)
Definition fits_in (n : nat) (o : obst) : Prop := ~ (ob_dim o = 3%nat /\ n = 2%nat).
(** the environment contains an obstacle *)
Definition contains (e : envir) (o : obst) : Prop := In (ob_id o) (map ob_id (e_obst e)).
(** every obstacle that is avoided in some room belongs to the environment *)
Definition owns (e : envir) : Prop := forall r o, In r (e_rooms e) -> In o (to_avoid e r) -> contains e o.
