(** Vocabulary for the closed loop: when the settings fit together, what a
    planned motion is in seconds, and which answers occur in a run. *)
From Coq Require Import Reals QArith Qreals ZArith List Arith.
From Verif Require Import Spline_Model Spline_Spec Splop_Spec Vehicle_Model Lift_Spec Loop_Model.
From Verif Require Timing_Model Obst_Model Obst_Spec Vehicle_Spec.
Import ListNotations.
Local Open Scope R_scope.

(** one update is m samples, and the horizon leaves room for one update after
    the first knot interval *)
Definition steady (g : settings) (m : nat) : Prop :=
  (0 < ts g)%Q /\ (1 <= m)%nat /\ (upd g == inject_Z (Z.of_nat m) * ts g)%Q /\
  (0 < knot_time g)%Q /\ (knot_time g + upd g <= horizon g)%Q.

(** the answers consist of splines on the unit interval; those of the vehicle
    are cubic with simple inner knots, and the slack splines share their bases *)
Definition proper_answer (g : settings) (a : answer) : Prop :=
  (forall i, (i < dim g)%nat -> on_unit (path a i) /\ degree (sbasis (path a i)) = 3%nat /\
     forall t, 0 < t < 1 -> mult_le (sbasis (path a i)) t 1) /\
  (forall i, (i < dim g)%nat -> on_unit (slack a i) /\ sbasis (slack a i) = sbasis (path a i)) /\ (forall k j, on_unit (plane a k j)).

(** derivative number o of component i of the planned motion, t seconds after
    an update at relative time r *)
Definition course (g : settings) (a : answer) (r : Q) (o i : nat) (t : R) : R :=
  call (derivative (path a i) o) ((Q2R r + t) / Q2R (horizon g)) / Q2R (horizon g) ^ o.

(** the time of update number k, and the time within the knot interval then *)
Definition at_update (g : settings) (k : nat) : R := INR k * Q2R (upd g).
Definition phase (g : settings) (k : nat) : Q :=
  Timing_Model.rel_time (knot_time g) (inject_Z (Z.of_nat k) * upd g) None.

(** every answer of a run has property P in the world in which it was found *)
Fixpoint all_answers (P : world -> answer -> Prop) (g : settings) (as_ : list answer) (w : world) : Prop :=
  match as_ with
  | [] => True
  | a :: r => (forall w1, prepared g w = Some w1 -> P w1 a) /\
              (forall w2, pass g a w = Some w2 -> all_answers P g r w2)
  end.

(** an answer starts in the predicted state with the predicted velocity *)
Definition starts_right (g : settings) (w : world) (a : answer) : Prop :=
  let r := rel g (now w) (start_time w) in
  forall i, (i < dim g)%nat ->
    course g a r 0 i 0 = nth i (p_state w) 0 /\ course g a r 1 i 0 = nth i (p_input w) 0.

(** a log agrees with a motion p with velocity v: sample j belongs to time
    j times the sample time *)
Definition recorded (g : settings) (p v : nat -> R -> R) (l : list column) : Prop :=
  forall j, (j < length l)%nat ->
    (c_time (nth j l no_column) == inject_Z (Z.of_nat j) * ts g)%Q /\
    c_state (nth j l no_column) = map (fun i => p i (INR j * Q2R (ts g))) (seq 0 (dim g)) /\
    c_input (nth j l no_column) = map (fun i => v i (INR j * Q2R (ts g))) (seq 0 (dim g)).

(** an obstacle after k updates *)
Fixpoint obstacle_after (g : settings) (k : nat) (o : obstacle) : obstacle :=
  match k with O => o | S k' => simulate_obstacle g (upd g) (obstacle_after g k' o) end.

(** predictions and simulations are of the same kind: both options set or both
    unset (the default) *)
Definition consistent (g : settings) : Prop := ideal_prediction g = ideal_update g.

(** the motion follows every plan exactly until the next update *)
Definition follows (g : settings) (as_ : list answer) (p v : nat -> R -> R) : Prop :=
  forall n a i t, nth_error as_ n = Some a -> (i < dim g)%nat -> 0 <= t <= Q2R (upd g) ->
    p i (at_update g n + t) = course g a (phase g n) 0 i t /\
    v i (at_update g n + t) = course g a (phase g n) 1 i t.
(** every plan starts where the vehicle is; the velocity interpolates the
    planned velocities at the samples *)
Definition interpolates (g : settings) (m : nat) (as_ : list answer) (p v : nat -> R -> R) : Prop :=
  let h := Q2R (ts g) in
  forall n a i, nth_error as_ n = Some a -> (i < dim g)%nat ->
    p i (at_update g n) = course g a (phase g n) 0 i 0 /\
    forall q t, (q < m)%nat -> 0 <= t <= h ->
      v i (at_update g n + INR q * h + t) =
      (1 - t / h) * course g a (phase g n) 1 i (INR q * h) + t / h * course g a (phase g n) 1 i (INR (S q) * h).

(** an obstacle before the first update, in state x, y, whose jumps lie in the
    future *)
Definition fresh (o : obstacle) (x y : Obst_Model.ost) : Prop :=
  o_lx o = Obst_Model.log0 x /\ o_ly o = Obst_Model.log0 y /\
  forall e, In e (o_evx o) \/ In e (o_evy o) -> 0 < Obst_Model.et e.
(** no jump of the obstacle at a time in (lo, hi] *)
Definition calm (o : obstacle) (lo hi : R) : Prop :=
  forall e, In e (o_evx o) \/ In e (o_evy o) -> ~ (lo < Obst_Model.et e <= hi).

(** f 0 + ... + f (n - 1) *)
Definition total (n : nat) (f : nat -> R) : R := fold_right Rplus 0 (map f (seq 0 n)).

(** p with velocity v is the motion that results from the answers as_: the
    passes succeed, the log records p and v at every sample time, p starts in
    the given state with the given velocity, v is its derivative at all times,
    and p is tied to the plans *)
Definition moves (g : settings) (m : nat) (as_ : list answer) (s0 i0 : list R) (obs : list obstacle)
    (p v : nat -> R -> R) : Prop :=
  exists w l, passes g as_ (world0 s0 i0 obs) = Some w /\ log w = Some l /\
    length l = (length as_ * m + 1)%nat /\ recorded g p v l /\
    (forall i, (i < dim g)%nat -> p i 0 = nth i s0 0 /\ v i 0 = nth i i0 0) /\
    (forall i t, (i < dim g)%nat -> 0 <= t <= at_update g (length as_) ->
       Vehicle_Spec.deriv_in 0 (at_update g (length as_)) (p i) t (v i t)) /\
    (if ideal_update g then follows g as_ p v else interpolates g m as_ p v).

(** the limits of the planar holonomic vehicle, per component *)
Definition two {A} (x y : A) (i : nat) : A := if (i =? 0)%nat then x else y.
(** how far the vehicle can be from its plan t seconds after an update *)
Definition slip (g : settings) (L : hlimits) (i : nat) (t : R) : R :=
  if ideal_update g then 0 else (two (axmax L) (aymax L) i - two (axmin L) (aymin L) i) * Q2R (ts g) / 4 * t.
