(** What a moving obstacle should do, stated without the model's helpers. *)
From Coq Require Import Reals List.
From Verif Require Import Obst_Model.
Import ListNotations.
Local Open Scope R_scope.

(** uniform acceleration: where an axis with position x, velocity v and
    acceleration a is after a time d (d may be negative) *)
Definition newton (x v a d : R) : R := x + v * d + a * d ^ 2 / 2.

(** state at time [t] of an axis that is in state [s] at time [t0] and then
    goes through the scheduled jumps at times in (t0, t] *)
Inductive moved_to : list event -> R -> ost -> R -> ost -> Prop :=
| moved_none : forall t0 s t,
    moved_to [] t0 s t
      (mkO (newton (ox s) (ov s) (oa s) (t - t0)) (ov s + oa s * (t - t0)) (oa s))
| moved_other : forall e evs t0 s t s', ~ (t0 < et e <= t) ->
    moved_to evs t0 s t s' -> moved_to (e :: evs) t0 s t s'
| moved_event : forall e evs t0 s t s', t0 < et e <= t ->
    moved_to evs t0 s t s' ->
    moved_to (e :: evs) t0 s t
      (mkO (ox s' + newton (edx e) (edv e) (eda e) (t - et e))
           (ov s' + edv e + eda e * (t - et e)) (oa s' + eda e)).

(** point rotated by an angle *)
Definition turned (phi : R) (p : R * R) : R * R :=
  (fst p * cos phi - snd p * sin phi, fst p * sin phi + snd p * cos phi).
