(* Reference notions for the G-code theorems: what a program means for a machine
   that remembers its position. *)
From Coq Require Import String Ascii List QArith Bool Arith.
From Verif Require Import Gcode_Model.
Import ListNotations.
Open Scope nat_scope.

(* two points with numerically equal coordinates *)
Definition peq (p q : pos) : Prop := (px p == px q /\ py p == py q /\ pz p == pz q)%Q.

(* where a machine standing at p ends after the command *)
Definition keep (o : option Q) (d : Q) : Q := match o with Some v => v | None => d end.
Definition target (p : pos) (c : command) : pos :=
  (keep (cX c) (px p), keep (cY c) (py p), keep (cZ c) (pz p)).

(* all motions of a program run from p: code, start, end *)
Fixpoint moves (p : pos) (cs : list command) : list (gtype * pos * pos) :=
  match cs with
  | [] => []
  | c :: cs' => match ctype c with
                | None => moves p cs'
                | Some g => (g, p, target p c) :: moves (target p c) cs'
                end
  end.
(* the position after the program *)
Fixpoint final (p : pos) (cs : list command) : pos :=
  match cs with
  | [] => p
  | c :: cs' => final (match ctype c with None => p | Some _ => target p c end) cs'
  end.

(* where the program starts: a leading G00 defines the position, otherwise 0 *)
Fixpoint origin (cs : list command) : pos :=
  match cs with
  | [] => (0, 0, 0)%Q
  | c :: cs' => match ctype c with
                | None => origin cs'
                | Some G00 => target (0, 0, 0)%Q c
                | Some _ => (0, 0, 0)%Q
                end
  end.

(* arcs always count; straight motions only when they move *)
Definition travels (m : gtype * pos * pos) : Prop :=
  match fst (fst m) with
  | G00 | G01 => ~ peq (snd (fst m)) (snd m)
  | _ => True
  end.

(* kept is the subsequence of l of the elements satisfying P *)
Inductive kept {A} (P : A -> Prop) : list A -> list A -> Prop :=
| kept_nil : kept P [] []
| kept_yes : forall x l k, P x -> kept P l k -> kept P (x :: l) (x :: k)
| kept_no : forall x l k, ~ P x -> kept P l k -> kept P (x :: l) k.

Definition view (b : block) : gtype * pos * pos := (btype b, bstart b, bend b).

(* each block starts where its predecessor ends *)
Fixpoint linked (bs : list block) : Prop :=
  match bs with
  | [] => True
  | b :: bs' => match bs' with [] => True | b' :: _ => peq (bend b) (bstart b') end /\ linked bs'
  end.

(* a word that carries no meaning for the parser *)
Definition meaningless (w : string) : Prop :=
  ~ In w ["G00"; "G01"; "G02"; "G03"]%string /\
  forall a, In a ["X"; "Y"; "Z"; "I"; "J"; "K"]%char -> ~ In a (list_ascii_of_string w).

(* a straight motion with a change of height *)
Definition changes_height (b : block) : Prop :=
  (btype b = G00 \/ btype b = G01) /\ ~ (pz (bstart b) == pz (bend b))%Q.

(* the shift-and-scale map of convert, on points, centres and blocks *)
Definition place (ox oy k : Q) (p : pos) : pos := ((px p - ox) * k, (py p - oy) * k, pz p)%Q.
Definition peq_block (a b : block) : Prop :=
  btype a = btype b /\ peq (bstart a) (bstart b) /\ peq (bend a) (bend b).
(* words with at most one address letter; comments carry none *)
Definition letters : list ascii := ["X"; "Y"; "Z"; "I"; "J"; "K"]%char.
Definition clean (w : string) : Prop :=
  forall a b, In a letters -> In b ("("%char :: letters) ->
    In a (list_ascii_of_string w) -> In b (list_ascii_of_string w) -> a = b.

(* decimal notation: read back exactly, no letters used by the parser *)
Definition faithful (num : string -> option Q) (str : Q -> string) : Prop :=
  (forall q, exists r, num (str q) = Some r /\ (r == q)%Q) /\
  (forall q a, In a ("("%char :: letters) -> ~ In a (list_ascii_of_string (str q))).

(* the rooms are numbered consecutively *)
Definition numbered (rooms : list room) : Prop :=
  forall i r, nth_error rooms i = Some r -> rnumber r = i.

(* a block and its image under the shift-and-scale map; the centre matters for
   arcs only *)
Definition image (ox oy k : Q) (b b' : block) : Prop :=
  btype b' = btype b /\ peq (bstart b') (place ox oy k (bstart b)) /\
  peq (bend b') (place ox oy k (bend b)) /\
  (btype b = G02 \/ btype b = G03 ->
   (px (bcenter b') == (px (bcenter b) - ox) * k /\ py (bcenter b') == (py (bcenter b) - oy) * k)%Q).

(* every arc of the program gives both offsets of its centre *)
Definition arcs_complete (cs : list command) : Prop :=
  forall c, In c cs -> ctype c = Some G02 \/ ctype c = Some G03 -> cI c <> None /\ cJ c <> None.
(* the first motion is a G00 giving both coordinates *)
Fixpoint starts_placed (cs : list command) : Prop :=
  match cs with
  | [] => True
  | c :: cs' => match ctype c with
                | None => starts_placed cs'
                | Some g => g = G00 /\ cX c <> None /\ cY c <> None
                end
  end.
