(* Model of the bang-bang jerk guess for one coordinate of a G-code segment
   (problems/gcodeschedulerproblem.py). *)
From Coq Require Import Reals List Arith.
From Verif Require Import Spline_Model Gmove_Model.
Import ListNotations.
Local Open Scope R_scope.

(* gcodeschedulerproblem.py 892: the basis of the third derivative *)
Definition jerk_basis (b : bbasis) : bbasis := mkB (slice_oo 3 (knots b)) (degree b - 3).
(* gcodeschedulerproblem.py 912-916: jerk integrated three times *)
Definition bang_position (b : bbasis) (j : R) : bspline :=
  let jb := jerk_basis b in
  running_integral (running_integral (running_integral (mkS jb (jerk_coeffs (blen jb) j)))).
(* gcodeschedulerproblem.py 919-931 for one coordinate; x0 and x1 are the coordinate of the
   end points of the segment.  Division by a zero last coefficient (fewer than four jerk
   coefficients) is an arbitrary number here and nan in numpy. *)
Definition bang_guess (b : bbasis) (j x0 x1 : R) : bspline :=
  mkS b (scaled_guess (coeffs (bang_position b j)) x0 x1).
