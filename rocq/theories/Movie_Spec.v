(** What a movie should show. *)
From Coq Require Import ZArith List.
Import ListNotations.
Local Open Scope Z_scope.

(** indices of samples 0..n *)
Definition valid (n : Z) (ix : list Z) : Prop := Forall (fun k => 0 <= k <= n) ix.

(** time never runs backwards *)
Fixpoint forward (ix : list Z) : Prop :=
  match ix with
  | a :: ((b :: _) as r) => a <= b /\ forward r
  | _ => True
  end.
