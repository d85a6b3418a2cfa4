(** Vocabulary for the statements on the dual methods. *)

From Coq Require Import List Arith Reals.
From Verif Require Import Admm_Model.
Import ListNotations.
Open Scope R_scope.

(** Inner product and matrix-vector product of lists. *)
Fixpoint inner (a b : list R) : R :=
  match a, b with
  | x :: a, y :: b => x * y + inner a b
  | _, _ => 0
  end.

Definition apply_rows (A : list (list R)) (x : list R) : list R := map (fun r => inner r x) A.

Fixpoint minus (a b : list R) : list R :=
  match a, b with
  | x :: a, y :: b => x - y :: minus a b
  | _, _ => []
  end.

(** The augmented Lagrangian term that the consensus update minimises. *)
Definition augmented (rho : R) (l x z : list R) : R :=
  inner l (minus x z) + rho / 2 * inner (minus x z) (minus x z).

(** The rows of a matrix with [n] columns are linearly independent: no
    combination with a non-zero coefficient is orthogonal to everything. *)
Definition independent (n : nat) (A : list (list R)) : Prop :=
  forall mu, length mu = length A ->
    (forall w, length w = n -> inner mu (apply_rows A w) = 0) -> mu = repeat 0 (length A).

(** A convex function on a convex set of vectors of length [n]. *)
Definition convex_on (n : nat) (X : list R -> Prop) (J : list R -> R) : Prop :=
  forall x y z t, length x = n -> length y = n -> length z = n -> X x -> X y -> 0 <= t <= 1 ->
    (forall k, nth k z 0 = (1 - t) * nth k x 0 + t * nth k y 0) ->
    X z /\ J z <= (1 - t) * J x + t * J y.

(** Sum over a fleet. *)
Fixpoint sum_upto (N : nat) (f : nat -> R) : R :=
  match N with
  | O => 0
  | S n => sum_upto n f + f n
  end.

(** All copies that the updaters hold equal the originals. *)
Definition copies_agree (N : nat) (nb : nat -> list nat) (s : nat -> updater) : Prop :=
  forall u n, (u < N)%nat -> In n (nb u) ->
    x_j (s u) n = x_i (s n) /\ z_ji (s u) n = z_ij (s n) u /\ l_ji (s u) n = l_ij (s n) u.

(** Lengths of x, z and their copies fit. *)
Definition fits (N : nat) (nb : nat -> list nat) (s : nat -> updater) : Prop :=
  forall u, (u < N)%nat -> length (x_i (s u)) = length (z_i (s u)) /\
    forall n, In n (nb u) -> length (x_j (s u) n) = length (z_ij (s u) n).

(** Updater [u] has vectors of length [dim u] for itself and [dim n] for its
    neighbour [n]. *)
Definition sized (nb : nat -> list nat) (dim : nat -> nat) (u : nat) (d : updater) : Prop :=
  length (x_i d) = dim u /\ length (z_i d) = dim u /\ length (l_i d) = dim u /\
  forall n, In n (nb u) ->
    length (x_j d n) = dim n /\ length (z_ij d n) = dim n /\ length (l_ij d n) = dim n /\
    length (z_ji d n) = dim u /\ length (l_ji d n) = dim u.

(** Same primal, consensus and multiplier values, as far as they are used. *)
Definition same_on (nb : nat -> list nat) (u : nat) (d e : updater) : Prop :=
  x_i d = x_i e /\ z_i d = z_i e /\ l_i d = l_i e /\
  forall n, In n (nb u) -> x_j d n = x_j e n /\ z_ij d n = z_ij e n /\ l_ij d n = l_ij e n /\
                           z_ji d n = z_ji e n /\ l_ji d n = l_ji e n.

(** A symmetric neighbourhood within the fleet. *)
Definition neighbourhood (N : nat) (nb : nat -> list nat) : Prop :=
  forall u, (u < N)%nat -> NoDup (nb u) /\
    forall n, In n (nb u) -> (n < N)%nat /\ In u (nb n).

(** The vectors of a vehicle and its neighbours one after the other. *)
Definition gather (nb : nat -> list nat) (y : nat -> list R) (u : nat) : list R :=
  y u ++ concat (map y (nb u)).

(** All rows have length [n]. *)
Definition rows (n : nat) (A : list (list R)) : Prop := forall r, In r A -> length r = n.
