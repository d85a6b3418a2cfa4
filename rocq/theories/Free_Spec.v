(** Vocabulary for the closed loop with free end time. *)
From Coq Require Import Reals QArith Qreals ZArith List Arith.
From Verif Require Import Spline_Model Spline_Spec Splop_Spec Vehicle_Model Lift_Spec Loop_Model Loop_Spec Free_Model.
From Verif Require Timing_Model Vehicle_Spec.
Import ListNotations.
Local Open Scope R_scope.

(** one update is m samples *)
Definition paced (g : settings) (m : nat) : Prop :=
  (0 < ts g)%Q /\ (1 <= m)%nat /\ (upd g == inject_Z (Z.of_nat m) * ts g)%Q.
(** the answers consist of splines on the unit interval; those of the vehicle
    are cubic with simple inner knots *)
Definition proper (g : settings) (f : fanswer) : Prop :=
  (forall i, (i < dim g)%nat -> on_unit (path (body f) i) /\ degree (sbasis (path (body f) i)) = 3%nat /\
     forall t, 0 < t < 1 -> mult_le (sbasis (path (body f) i)) t 1) /\
  (forall k j, on_unit (plane (body f) k j)).
(** the motion takes at least one update *)
Definition long (g : settings) (f : fanswer) : Prop := (upd g <= motion f)%Q.
(** the motion takes at least one sample, and if it is shorter than an update
    then its samples lie within it (a remainder that rounding to six decimals
    takes for a whole sample is excluded) *)
Definition timely (g : settings) (f : fanswer) : Prop :=
  (ts g <= motion f)%Q /\
  ((motion f < upd g)%Q -> (inject_Z (Timing_Model.n_samp (motion f) (ts g)) * ts g <= motion f)%Q).

(** all answers but the last take a whole update *)
Definition legs (g : settings) (fs : list fanswer) (f : fanswer) : Prop :=
  Forall (long g) fs /\ Forall (proper g) fs /\ timely g f /\ proper g f.

(** derivative number o of component i of the planned motion, t seconds after
    the update *)
Definition fcourse (f : fanswer) (o i : nat) (t : R) : R :=
  call (derivative (path (body f) i) o) (t / Q2R (motion f)) / Q2R (motion f) ^ o.

(** the world after updates with the answers fs and f; the clock has advanced
    after every update but the last *)
Definition after (g : settings) (fs : list fanswer) (f : fanswer) (w : world) : option world :=
  match f_passes g fs w with None => None | Some w' => f_update g f w' end.
(** the number of samples that an update adds *)
Definition count (g : settings) (m : nat) (f : fanswer) : nat :=
  if Qlt_le_dec (motion f) (upd g) then Z.to_nat (Timing_Model.n_samp (motion f) (ts g)) else m.
(** the time of the last sample *)
Definition end_time (g : settings) (m : nat) (fs : list fanswer) (f : fanswer) : R :=
  at_update g (length fs) + INR (count g m f) * Q2R (ts g).

(** every answer has property P in the world in which it was found *)
Fixpoint all_found (P : world -> fanswer -> Prop) (g : settings) (fs : list fanswer) (w : world) : Prop :=
  match fs with
  | [] => True
  | f :: r => (forall w1, prepared g w = Some w1 -> P w1 f) /\
              (forall w2, f_pass g f w = Some w2 -> all_found P g r w2)
  end.

(** the motion follows every plan exactly, for as long as it is carried out *)
Definition f_follows (g : settings) (m : nat) (fs : list fanswer) (p v : nat -> R -> R) : Prop :=
  forall n f i t, nth_error fs n = Some f -> (i < dim g)%nat -> 0 <= t <= INR (count g m f) * Q2R (ts g) ->
    p i (at_update g n + t) = fcourse f 0 i t /\ v i (at_update g n + t) = fcourse f 1 i t.
(** every plan starts where the vehicle is; the velocity interpolates the
    planned velocities at the samples *)
Definition f_interpolates (g : settings) (m : nat) (fs : list fanswer) (p v : nat -> R -> R) : Prop :=
  let h := Q2R (ts g) in
  forall n f i, nth_error fs n = Some f -> (i < dim g)%nat ->
    p i (at_update g n) = fcourse f 0 i 0 /\
    forall q t, (q < count g m f)%nat -> 0 <= t <= h ->
      v i (at_update g n + INR q * h + t) =
      (1 - t / h) * fcourse f 1 i (INR q * h) + t / h * fcourse f 1 i (INR (S q) * h).

(** p with velocity v is the motion that results from the answers fs and f:
    no update raises, the log records p and v at every sample time, p starts in
    the given state with the given velocity, v is its derivative at all times,
    and p is tied to the plans *)
Definition f_moves (g : settings) (m : nat) (fs : list fanswer) (f : fanswer) (s0 i0 : list R) (obs : list obstacle)
    (p v : nat -> R -> R) : Prop :=
  exists w l, after g fs f (world0 s0 i0 obs) = Some w /\ log w = Some l /\
    length l = (length fs * m + count g m f + 1)%nat /\ recorded g p v l /\
    (forall i, (i < dim g)%nat -> p i 0 = nth i s0 0 /\ v i 0 = nth i i0 0) /\
    (forall i t, (i < dim g)%nat -> 0 <= t <= end_time g m fs f ->
       Vehicle_Spec.deriv_in 0 (end_time g m fs f) (p i) t (v i t)) /\
    (if ideal_update g then f_follows g m (fs ++ [f]) p v else f_interpolates g m (fs ++ [f]) p v).

(** the motion time shrinks by at least an update from answer to answer *)
Fixpoint shrinking (g : settings) (fs : list fanswer) : Prop :=
  match fs with
  | f :: r => match r with [] => True | f2 :: _ => (motion f2 + upd g <= motion f)%Q /\ shrinking g r end
  | [] => True
  end.

(** how far the velocity can be from the planned one *)
Definition vslip (g : settings) (L : Vehicle_Model.hlimits) (i : nat) : R :=
  if ideal_update g then 0 else (two (axmax L) (aymax L) i - two (axmin L) (aymin L) i) * Q2R (ts g) / 4.

(** the part of the plan that is not carried out by the last update *)
Definition left_over (g : settings) (m : nat) (f : fanswer) : R := Q2R (motion f) - INR (count g m f) * Q2R (ts g).
(** the last knot of a spline before its end *)
Definition last_inner (s : bspline) : R := nth (length (knots (sbasis s)) - degree (sbasis s) - 2) (knots (sbasis s)) 0.

(** an answer that the loop can deal with: sampled within its motion time, or
    so short that it is left out *)
Definition usable (g : settings) (f : fanswer) : Prop :=
  timely g f \/ ((0 < motion f)%Q /\ (motion f < ts g)%Q).
(** the answers of a run: the first one takes at least a sample *)
Definition sequel (g : settings) (fs : list fanswer) : Prop :=
  Forall (proper g) fs /\ Forall (usable g) fs /\ match fs with [] => True | f :: _ => (ts g <= motion f)%Q end.
