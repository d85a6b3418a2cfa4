(** Vocabulary for the statements on distributed problems. *)

From Coq Require Import String List Arith.
Import ListNotations.

(** Strictly increasing: sorted without duplicates. *)
Definition increasing (l : list nat) : Prop :=
  forall i j d, i < j -> j < length l -> nth i l d < nth j l d.

(** A constraint (given by its dependencies) uses index [i] of variable [n]
    of child [c]. *)
Definition uses (dep : list ((nat * nat) * list (string * list nat)))
    (c : nat * nat) (n : string) (i : nat) : Prop :=
  exists dic is, In (c, dic) dep /\ In (n, is) dic /\ In i is.

(** Child [c] takes part in a constraint. *)
Definition takes_part (dep : list ((nat * nat) * list (string * list nat)))
    (c : nat * nat) : Prop := exists dic, In (c, dic) dep.

(** No constraint involves two children of the same updater. *)
Definition one_child_each (cons : list (list ((nat * nat) * list (string * list nat)))) : Prop :=
  forall dep c c', In dep cons -> takes_part dep c -> takes_part dep c' -> fst c = fst c' -> c = c'.
