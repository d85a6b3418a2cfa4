(** Independent vocabulary for the spline properties: what the domain of a
    knot vector is, sorted knots, well-sized coefficients.  No definition of
    this file refers to the evaluation recursion of the model. *)
From Coq Require Import Reals List Arith Lia.
From Verif Require Import Spline_Model.
Import ListNotations.
Local Open Scope R_scope.

Definition nondecreasing (l : list R) : Prop :=
  forall i j, (i <= j)%nat -> (j < length l)%nat -> nth i l 0 <= nth j l 0.

(** more knots than twice the degree plus one: at least one basis function
    region [knots[degree], knots[len(basis)]] *)
Definition well_formed (b : bbasis) : Prop :=
  nondecreasing (knots b) /\ (2 * degree b + 2 <= length (knots b))%nat.

Definition dom_left (b : bbasis) : R := nth (degree b) (knots b) 0.
Definition dom_right (b : bbasis) : R := nth (length (knots b) - degree b - 1) (knots b) 0.

(** Point of the domain.  The left end belongs to the domain when the knot
    vector is clamped there with multiplicity exactly degree+1. *)
Definition in_domain (b : bbasis) (x : R) : Prop :=
  (dom_left b < x <= dom_right b) \/
  (x = nth 0 (knots b) 0 /\ x = dom_left b /\ dom_left b < nth (degree b + 1) (knots b) 0).

Definition sized (s : bspline) : Prop :=
  length (coeffs s) = (length (knots (sbasis s)) - degree (sbasis s) - 1)%nat.

Definition total (l : list R) : R := fold_right Rplus 0 l.

(** clamped at both ends with multiplicity degree+1 *)
Definition clamped (b : bbasis) : Prop :=
  nth 0 (knots b) 0 = nth (degree b) (knots b) 0 /\
  nth (length (knots b) - degree b - 1) (knots b) 0 = nth (length (knots b) - 1) (knots b) 0 /\
  nth (degree b) (knots b) 0 < nth (degree b + 1) (knots b) 0 /\
  nth (length (knots b) - degree b - 2) (knots b) 0 < nth (length (knots b) - degree b - 1) (knots b) 0.

(** [x] occurs at most [r] times among the (sorted) knots *)
Definition mult_le (b : bbasis) (x : R) (r : nat) : Prop :=
  forall i, (i + r < length (knots b))%nat ->
    ~ (nth i (knots b) 0 = x /\ nth (i + r) (knots b) 0 = x).

(** no division by zero when differentiating: no interior knot is repeated
    more than degree times *)
Definition spans_positive (b : bbasis) : Prop :=
  forall i, (1 <= i)%nat -> (i + degree b + 1 < length (knots b))%nat ->
    nth i (knots b) 0 < nth (i + degree b) (knots b) 0.

(** every basis function has a support of positive length *)
Definition supports_positive (b : bbasis) : Prop :=
  forall i, (i + degree b + 1 < length (knots b))%nat ->
    nth i (knots b) 0 < nth (i + degree b + 1) (knots b) 0.
