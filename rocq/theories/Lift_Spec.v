(** Vocabulary for constraints on coefficients: values of splines over the
    whole time interval, expressions made of proper splines, and a bound on
    what rounding small entries of the transformations to zero can change. *)
From Coq Require Import Reals List Arith Bool.
From Verif Require Import Spline_Model Spline_Spec Splop_Spec Vehicle_Model Lift_Model.
Import ListNotations.
Local Open Scope R_scope.

(** the splines and their derivatives at time tau *)
Definition jets (X : nat -> bspline) (tau : R) : nat -> jet :=
  fun i o => call (derivative (X i) o) tau.

(** a spline on the normalised time interval *)
Definition on_unit (s : bspline) : Prop := clamped_on (sbasis s) 0 1 /\ sized s.

(** the expression uses splines on the unit interval, differentiates at most
    degree times, and has no zeroth power *)
Fixpoint fits (X : nat -> bspline) (e : sx) : Prop :=
  match e with
  | SV i o => on_unit (X i) /\ (o <= degree (sbasis (X i)))%nat
  | SN _ => True
  | SAdd a b | SSub a b | SMul a b => fits X a /\ fits X b
  | SNeg a => fits X a
  | SPow a n => fits X a /\ (1 <= n)%nat
  end.
(** at least one spline occurs *)
Fixpoint mentions (e : sx) : bool :=
  match e with
  | SV _ _ => true
  | SN _ => false
  | SAdd a b | SSub a b | SMul a b => mentions a || mentions b
  | SNeg a | SPow a _ => mentions a
  end.
(** splines are only combined with numbers, never with each other *)
Fixpoint plain (e : sx) : bool :=
  match e with
  | SV _ _ | SN _ => true
  | SAdd a b | SSub a b | SMul a b => plain a && plain b && negb (mentions a && mentions b)
  | SNeg a => plain a
  | SPow a n => plain a && (negb (mentions a) || (n =? 1)%nat)
  end.

(** sum of the magnitudes of the coefficients of an intermediate result *)
Definition weight (tol : R) (X : nat -> bspline) (e : sx) : R :=
  match build tol X e with
  | Some (Spl s) => size_of (coeffs s)
  | Some (Num r) => Rabs r
  | None => 0
  end.
(** error of a product of two quantities of sizes wa, wb and errors ea, eb *)
Definition mixed (wa ea wb eb : R) : R := wa * eb + (wb + eb) * ea.
(** error of the products a*s, (a*s)*s, ... *)
Fixpoint pow_drift (tol : R) (s a : bspline) (es ea : R) (k : nat) : R :=
  match k with
  | O => ea
  | S k' => match Splop_Model.mul_spline tol a s with
            | None => 0
            | Some a' => pow_drift tol s a' es
                (tol * (size_of (coeffs a) * size_of (coeffs s)) +
                 mixed (size_of (coeffs a)) ea (size_of (coeffs s)) es) k'
            end
  end.
(** how far the built expression can be from the exact one: every operation
    on two splines adds at most tol times the sizes of its operands *)
Fixpoint drift (tol : R) (X : nat -> bspline) (e : sx) : R :=
  match e with
  | SV _ _ | SN _ => 0
  | SAdd a b | SSub a b => drift tol X a + drift tol X b +
      (if mentions a && mentions b then tol * (weight tol X a + weight tol X b) else 0)
  | SMul a b => mixed (weight tol X a) (drift tol X a) (weight tol X b) (drift tol X b) +
      (if mentions a && mentions b then tol * (weight tol X a * weight tol X b) else 0)
  | SNeg a => drift tol X a
  | SPow a n => match build tol X a with
                | Some (Spl s) => pow_drift tol s s (drift tol X a) (drift tol X a) (n - 1)
                | _ => 0
                end
  end.
(** the largest such distance over a list of constraints *)
Fixpoint drift_max (tol : R) (X : nat -> bspline) (l : list sx) : R :=
  match l with [] => 0 | e :: l' => Rmax (drift tol X e) (drift_max tol X l') end.
