(** Statements about initial guesses and free ends, without the code. *)
From Coq Require Import Reals List.
From Verif Require Import Spline_Model.
Local Open Scope R_scope.

(** distance in the plane *)
Definition apart (p q : R * R) : R := sqrt ((fst q - fst p) ^ 2 + (snd q - snd p) ^ 2).
(** the point at distance r from c in the direction t *)
Definition around (c : R * R) (r t : R) : R * R := (fst c + r * cos t, snd c + r * sin t).
(** position of the curve with x and y splines number 0 and 1 *)
Definition at_time (X : nat -> bspline) (tau : R) : R * R := (call (X 0%nat) tau, call (X 1%nat) tau).
(** one of the hundred evenly spread moments *)
Definition sampled (x : R) : Prop := exists k, (k < 100)%nat /\ x = INR k / 99.
(** the derivative of order o stays within the limit at the sampled moments
    when the movement takes T *)
Definition keeps (o : nat) (s : bspline) (lim T : R) : Prop :=
  forall x, sampled x -> Rabs (call (derivative s o) x) <= lim * T ^ o.
