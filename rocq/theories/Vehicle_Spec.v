(** What the vehicle properties say, independent of the model's helpers. *)
From Coq Require Import Reals List.
From Verif Require Import Vehicle_Model.
Import ListNotations.
Open Scope R_scope.

(** a list of constraints holds for the values of the splines at one time *)
Definition holds (env : nat -> jet) (cs : list con) : Prop :=
  forall c, In c cs ->
    (match clo c with None => True | Some l => l <= sval env (cexpr c) end) /\
    sval env (cexpr c) <= chi c.

(** a spline over normalised time seen in physical time t = T * tau: the o-th
    derivative is divided by T^o *)
Definition phys (T : R) (s : jet) (o : nat) : R := s o / T ^ o.

(** derivative within the interval [lo, hi]; one-sided at its ends *)
Definition deriv_in (lo hi : R) (f : R -> R) (t d : R) : Prop :=
  forall eps, 0 < eps -> exists delta, 0 < delta /\
    forall h, h <> 0 -> Rabs h < delta -> lo <= t + h <= hi ->
      Rabs ((f (t + h) - f t) / h - d) < eps.

(** the o-th and the (o+1)-th derivative of a trajectory belong together *)
Definition smooth (lo hi : R) (s : R -> jet) (o : nat) : Prop :=
  forall t, lo <= t <= hi -> deriv_in lo hi (fun u => s u o) t (s t (S o)).

(** the components of a state have the given time derivatives *)
Definition moves (lo hi : R) (state : list (R -> R)) (t : R) (rhs : list R) : Prop :=
  Forall2 (fun f d => deriv_in lo hi f t d) state rhs.

(** Euclidean length *)
Fixpoint sumsq (v : list R) : R := match v with [] => 0 | a :: r => a ^ 2 + sumsq r end.
