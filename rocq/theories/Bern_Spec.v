(** Splines on one knot interval: polynomials. *)
From Coq Require Import Reals List Arith.
From Verif Require Import Spline_Model Vehicle_Model.
Import ListNotations.
Local Open Scope R_scope.

(** the basis of the polynomials of degree d on [0, 1] *)
Definition bern (d : nat) : bbasis := mkB (repeat 0 (d + 1) ++ repeat 1 (d + 1)) d.
(** the degree of the value of an expression whose spline i has degree D i; a
    number has none *)
Definition join (f : nat -> nat -> nat) (a b : option nat) : option nat :=
  match a, b with
  | Some x, Some y => Some (f x y)
  | Some x, None | None, Some x => Some x
  | None, None => None
  end.
Fixpoint deg_of (D : nat -> nat) (e : sx) : option nat :=
  match e with
  | SV i o => Some (D i - o)%nat
  | SN _ => None
  | SAdd a b | SSub a b => join Nat.max (deg_of D a) (deg_of D b)
  | SMul a b => join Nat.add (deg_of D a) (deg_of D b)
  | SNeg a => deg_of D a
  | SPow a n => match deg_of D a with Some x => Some (n * x)%nat | None => None end
  end.
(** every spline is such a polynomial, derivatives exist, no zeroth power *)
Fixpoint polynomial (X : nat -> bspline) (D : nat -> nat) (e : sx) : Prop :=
  match e with
  | SV i o => sbasis (X i) = bern (D i) /\ length (coeffs (X i)) = S (D i) /\ (o <= D i)%nat
  | SN _ => True
  | SAdd a b | SSub a b | SMul a b => polynomial X D a /\ polynomial X D b
  | SNeg a => polynomial X D a
  | SPow a n => polynomial X D a /\ (1 <= n)%nat
  end.
(** no intermediate result has a degree above m *)
Fixpoint below_degree (m : nat) (D : nat -> nat) (e : sx) : Prop :=
  match deg_of D e with Some d => (d <= m)%nat | None => True end /\
  match e with
  | SAdd a b | SSub a b | SMul a b => below_degree m D a /\ below_degree m D b
  | SNeg a | SPow a _ => below_degree m D a
  | _ => True
  end.
