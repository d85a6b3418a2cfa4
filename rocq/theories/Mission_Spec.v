(** Vocabulary for missions: what a run or a pause adds to the log of the
    vehicle. *)
From Coq Require Import Reals QArith Qreals ZArith List Arith.
From Verif Require Import Spline_Model Vehicle_Model Loop_Model Loop_Spec Mission_Model.
Import ListNotations.
Local Open Scope R_scope.

(** the columns of l record the motion p with velocity v one, two, ... samples
    after the start of the motion, which is at time t0 *)
Definition records (g : settings) (t0 : Q) (p v : nat -> R -> R) (l : list column) : Prop :=
  forall j, (j < length l)%nat ->
    (c_time (nth j l no_column) == t0 + inject_Z (Z.of_nat (S j)) * ts g)%Q /\
    c_state (nth j l no_column) = map (fun i => p i (INR (S j) * Q2R (ts g))) (seq 0 (dim g)) /\
    c_input (nth j l no_column) = map (fun i => v i (INR (S j) * Q2R (ts g))) (seq 0 (dim g)).

(** the vehicle of a trip is in state x; the next run assumes velocity i: the
    given initial conditions before the first run, rest afterwards *)
Definition placed (g : settings) (s : trip) (x i : list R) : Prop :=
  length x = dim g /\ length i = dim g /\
  (world_of s = world0 x i (obstacles (world_of s)) \/
   i = repeat 0 (dim g) /\ exists l, log (world_of s) = Some l /\ l <> [] /\ c_state (last l no_column) = x).

(** a run that uses k + 1 of the answers brings trip s to trip s': the vehicle
    makes the motion p with velocity v from state x, input i, which is appended to
    the log from the time of the simulator on *)
Definition travels (g : settings) (m k : nat) (as_ : list answer) (s s' : trip) (x i : list R) (p v : nat -> R -> R) : Prop :=
  (k < length as_)%nat /\ moves g m (firstn (S k) as_) x i (obstacles (world_of s)) p v /\
  exists l0 l, log (world_of s') = Some (l0 ++ l) /\ length l = (S k * m)%nat /\
    records g (now (world_of s)) p v l /\
    (log (world_of s) = Some l0 \/ log (world_of s) = None /\ length l0 = 1%nat /\ recorded g p v l0).

(** where the plan of an answer ends, at the end of the horizon *)
Definition plan_end (g : settings) (a : answer) : list R := map (fun i => call (path a i) 1) (seq 0 (dim g)).

(** a property of a world and an answer that does not depend on the clock *)
Definition timeless (g : settings) (P : world -> answer -> Prop) : Prop :=
  forall W w a, (rel g (now W) (start_time W) == rel g (now w) (start_time w))%Q ->
    p_state W = p_state w -> p_input W = p_input w -> obstacles W = obstacles w -> P W a -> P w a.

(** a leg as it may occur: answers that the solver accepts, a pause of a whole
    number of samples *)
Definition fair (g : settings) (tol : R) (limits : list con) (vchk : list (R * R)) (rv sd : R) (l : leg) (s : trip) : Prop :=
  match l with
  | Drive goal as_ => Forall (proper_answer g) as_ /\
      all_answers (accepted g tol limits goal vchk rv sd) g as_ (reset (world_of s))
  | Rest d => exists K, (1 <= K)%nat /\ (d == inject_Z (Z.of_nat K) * ts g)%Q
  end.
Fixpoint fair_legs (g : settings) (stol tol : R) (limits : list con) (vchk : list (R * R)) (rv sd : R) (legs : list leg) (s : trip) : Prop :=
  match legs with
  | [] => True
  | l :: r => fair g tol limits vchk rv sd l s /\
      forall s', do_leg g stol l s = Some s' -> fair_legs g stol tol limits vchk rv sd r s'
  end.
(** a mission of fair legs, from the start, reaches the trip s *)
Definition reaches (g : settings) (stol tol : R) (limits : list con) (vchk : list (R * R)) (rv sd : R) (legs : list leg)
    (x0 i0 : list R) (obs : list obstacle) (s : trip) : Prop :=
  length x0 = dim g /\ length i0 = dim g /\ fair_legs g stol tol limits vchk rv sd legs (trip0 x0 i0 obs) /\
  mission g stol legs (trip0 x0 i0 obs) = Some s.

(** the number of samples simulated so far *)
Definition samples (s : trip) : nat := match log (world_of s) with None => 0%nat | Some l => (length l - 1)%nat end.
