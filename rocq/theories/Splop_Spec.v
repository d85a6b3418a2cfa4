(** Independent vocabulary for the spline algebra: knot multiplicity, bases
    clamped on an interval, sum of magnitudes. *)
From Coq Require Import Reals List Arith.
From Verif Require Import Spline_Model Spline_Spec.
Import ListNotations.
Local Open Scope R_scope.

(** how often t is a knot *)
Definition mult (b : bbasis) (t : R) : nat := count_occ Req_EM_T (knots b) t.

(** sorted knots, first and last one repeated degree+1 times, from lo to hi *)
Definition clamped_on (b : bbasis) (lo hi : R) : Prop :=
  well_formed b /\ clamped b /\
  nth 0 (knots b) 0 = lo /\ nth (length (knots b) - 1) (knots b) 0 = hi.

(** every inner knot of b1 is a knot of b, r times more often *)
Definition keeps_knots (b b1 : bbasis) (lo hi : R) (r : nat) : Prop :=
  forall t, lo < t < hi -> (0 < mult b1 t)%nat -> (mult b1 t + r <= mult b t)%nat.

(** sum of the magnitudes *)
Definition size_of (c : list R) : R := fold_right (fun a s => Rabs a + s) 0 c.

(** the equation with coefficients [fst r] and right-hand side [snd r] holds for y *)
Definition holds_row (y : list R) (r : list R * R) : Prop := dot (fst r) y = snd r.

(** the homogeneous system has only the zero solution (regular matrix) *)
Definition only_zero (n : nat) (A : list (list R)) : Prop :=
  forall y, length y = n -> (forall r, In r A -> dot r y = 0) -> y = repeat 0 n.
