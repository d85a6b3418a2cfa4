(** Vocabulary for the fleet statements, independent of the model. *)

From Coq Require Import List Arith Reals.
Import ListNotations.

(** Two vehicles are linked when a chain of pairs of [E], used in either
    direction, leads from one to the other. *)
Inductive linked (E : list (nat * nat)) : nat -> nat -> Prop :=
| linked_refl : forall v, linked E v v
| linked_fwd : forall u v w, linked E u v -> In (v, w) E -> linked E u w
| linked_bwd : forall u v w, linked E u v -> In (w, v) E -> linked E u w.

(** All vehicles of a fleet of [N] are linked. *)
Definition spans (N : nat) (E : list (nat * nat)) : Prop :=
  forall u v, u < N -> v < N -> linked E u v.

(** The undirected pairs of a list are pairwise different and proper. *)
Definition simple_pairs (E : list (nat * nat)) : Prop :=
  NoDup E /\ forall u v, In (u, v) E -> u <> v /\ ~ In (v, u) E.

(** Vehicle positions (one function of time per coordinate) are in the
    formation given by the offsets [conf] in the first [d] coordinates. *)
Definition in_formation (N d : nat) (position : nat -> list (R -> R))
    (conf : nat -> list R) : Prop :=
  forall u v k t, u < N -> v < N -> k < d ->
    (nth k (position u) (fun _ => 0) t - nth k (position v) (fun _ => 0) t =
     nth k (conf u) 0 - nth k (conf v) 0)%R.

(** All vehicles see the same fleet centre. *)
Definition same_centre (N d : nat) (centra : nat -> list (R -> R)) : Prop :=
  forall u v k t, u < N -> v < N -> k < d ->
    nth k (centra u) (fun _ => 0%R) t = nth k (centra v) (fun _ => 0%R) t.
