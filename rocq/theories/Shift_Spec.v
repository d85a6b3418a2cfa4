(** Vocabulary for the properties of the shifted and extrapolated splines.
    Nothing here refers to the matrices of the model. *)
From Coq Require Import Reals List Arith.
From Verif Require Import Spline_Model Spline_Spec.
Import ListNotations.
Local Open Scope R_scope.

(** the basis with its first degree+1 knots moved to t *)
Definition first_moved (b : bbasis) (t : R) : bbasis :=
  mkB (repeat t (degree b + 1) ++ skipn (degree b + 1) (knots b)) (degree b).

(** t lies in the first knot interval, not at its right end *)
Definition in_first (b : bbasis) (t : R) : Prop :=
  nth (degree b) (knots b) 0 <= t < nth (degree b + 1) (knots b) 0.

(** the polynomial with the given coefficients, constant term first *)
Fixpoint poly (a : list R) (x : R) : R :=
  match a with [] => 0 | c :: a' => c + x * poly a' x end.

(** the last knot before the right end and how often it occurs *)
Definition last_inner (b : bbasis) : R := nth (length (knots b) - degree b - 2) (knots b) 0.
Definition last_mult (b : bbasis) (m : nat) : Prop :=
  (1 <= m)%nat /\ (m + degree b + 2 <= length (knots b))%nat /\
  (forall i, (i < m)%nat -> nth (length (knots b) - degree b - 2 - i) (knots b) 0 = last_inner b) /\
  nth (length (knots b) - degree b - 2 - m) (knots b) 0 < last_inner b.

(** the basis with its right end moved over e; the old right end is kept as an
    m-fold inner knot *)
Definition extended (b : bbasis) (m : nat) (e : R) : bbasis :=
  mkB (firstn (length (knots b) - degree b - 1) (knots b) ++ repeat (dom_right b) m
       ++ repeat (dom_right b + e) (degree b + 1)) (degree b).

(** the basis one knot interval further on: the first interval is dropped, an
    interval as long as the last one is added *)
Definition advanced (b : bbasis) : bbasis :=
  mkB (repeat (nth (degree b + 1) (knots b) 0) (degree b + 1)
       ++ skipn (degree b + 2) (knots (extended b 1 (dom_right b - last_inner b)))) (degree b).

(** clamped knots 0, h, 2h, ..., K*h *)
Definition equidistant (d K : nat) (h : R) : bbasis :=
  mkB (repeat 0 d ++ map (fun i => INR i * h) (seq 0 (K + 1)) ++ repeat (INR K * h) d) d.
