(** Texts in which a word occurs at given places only. *)
From Coq Require Import Ascii String List Bool.
From Verif Require Import Label_Model.
Import ListNotations.
Local Open Scope list_scope.

(* w at the front of a text *)
Definition begins (w t : str) : Prop := exists r, t = w ++ r.

(* w does not occur from within p on, when t follows p *)
Definition nowhere (w p t : str) : Prop :=
  forall a b, p = a ++ b -> b <> [] -> ~ begins w (b ++ t).

(* pieces with a word between them *)
Fixpoint joined (w : str) (p : str) (ps : list str) : str :=
  match ps with [] => p | q :: r => p ++ w ++ joined w q r end.

(* and the word occurs nowhere else *)
Fixpoint only (w : str) (p : str) (ps : list str) : Prop :=
  match ps with
  | [] => nowhere w p []
  | q :: r => nowhere w p (w ++ joined w q r) /\ only w q r
  end.

(* capital letters *)
Definition lower : str := list_ascii_of_string "abcdefghijklmnopqrstuvwxyz".
Definition upper : str := list_ascii_of_string "ABCDEFGHIJKLMNOPQRSTUVWXYZ".

Definition capital (c d : ascii) : Prop :=
  (exists i, nth_error lower i = Some c /\ nth_error upper i = Some d) \/ (~ In c lower /\ d = c).
