(** Vocabulary for whole trips of vehicles with integrated position. *)
From Coq Require Import Reals List Arith.
From Verif Require Import Spline_Model Spline_Spec Splop_Spec Vehicle_Model Vehicle_Spec Lift_Spec.
Import ListNotations.
Local Open Scope R_scope.

(** no knot inside the unit interval is repeated more than degree times: the
    splines on this basis do not jump *)
Definition tidy (b : bbasis) : Prop := forall t, 0 < t < 1 -> mult_le b t (degree b).
(** no derivative that the expression uses jumps *)
Fixpoint seamless (X : nat -> bspline) (e : sx) : Prop :=
  match e with
  | SV i o => forall t, 0 < t < 1 -> mult_le (sbasis (X i)) t (degree (sbasis (X i)) - o)
  | SN _ => True
  | SAdd a b | SSub a b | SMul a b => seamless X a /\ seamless X b
  | SNeg a | SPow a _ => seamless X a
  end.
(** a spline on the unit interval whose derivatives up to order n exist and do
    not jump *)
Definition regular (n : nat) (s : bspline) : Prop :=
  on_unit s /\ (n <= degree (sbasis s))%nat /\
  forall t, 0 < t < 1 -> mult_le (sbasis s) t (degree (sbasis s) - n).

(** planar motion of something that moves along its heading: speed V, turning
    rate w *)
Definition drives (T : R) (x y th V w : R -> R) : Prop :=
  forall t, 0 <= t <= T ->
    deriv_in 0 T x t (V t * cos (th t)) /\ deriv_in 0 T y t (V t * sin (th t)) /\ deriv_in 0 T th t (w t).
(** straight line distance in the plane *)
Definition gap (p q : R * R) : R := sqrt ((fst p - fst q) ^ 2 + (snd p - snd q) ^ 2).
(** ... and in space *)
Definition gap3 (p q : R * R * R) : R :=
  sqrt ((fst (fst p) - fst (fst q)) ^ 2 + (snd (fst p) - snd (fst q)) ^ 2 + (snd p - snd q) ^ 2).
