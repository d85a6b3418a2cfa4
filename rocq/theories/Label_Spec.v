(** Names of files and templates with their contents. *)
From Coq Require Import Ascii String List Bool.
From Verif Require Import Label_Model.
Import ListNotations.
Local Open Scope list_scope.

Definition streq (a b : str) : {a = b} + {a <> b} := list_eq_dec ascii_dec a b.

(* a template: text, then places with the text that follows them *)
Definition template : Type := (str * list (str * str))%type.

Definition place (k : str) : str := "@"%char :: k ++ ["@"%char].

(* the text of a template *)
Definition written (t : template) : str :=
  fst t ++ concat (map (fun x => place (fst x) ++ snd x) (snd t)).

(* the value of a key: its first one *)
Fixpoint value (data : list (str * str)) (k : str) : option str :=
  match data with
  | [] => None
  | (k', v) :: r => if streq k' k then Some v else value r k
  end.

(* places get their values, and are kept if there is none *)
Definition filled (data : list (str * str)) (t : template) : str :=
  fst t ++ concat (map (fun x : str * str => match value data (fst x) with Some v => v | None => place (fst x) end ++ snd x) (snd t)).

(* only places hold the sign @, and behind every place there is a character c *)
Definition clear (c : ascii) (t : template) : Prop :=
  ~ In "@"%char (fst t) /\
  Forall (fun x => ~ In "@"%char (fst x) /\ ~ In "@"%char (snd x) /\ In c (snd x)) (snd t).

(* keys hold neither the sign nor c, values do not hold the sign *)
Definition plain (c : ascii) (data : list (str * str)) : Prop :=
  Forall (fun x => ~ In "@"%char (fst x) /\ ~ In c (fst x) /\ ~ In "@"%char (snd x)) data.
