(** Written numbers, lines and paths, and the points they stand for. *)
From Coq Require Import ZArith QArith List Bool.
From Verif Require Import Path_Model.
Import ListNotations.
Local Open Scope Q_scope.

(* a number as it is written: sign, digits before and after the point *)
Record wnum := { neg : bool; ip : list nat; fp : option (list nat) }.

Fixpoint ival (l : list nat) : Q :=
  match l with
  | [] => 0
  | d :: r => inject_Z (Z.of_nat d) * inject_Z (10 ^ Z.of_nat (length r)) + ival r
  end.

Fixpoint fval (l : list nat) : Q :=
  match l with
  | [] => 0
  | d :: r => (inject_Z (Z.of_nat d) + fval r) / 10
  end.

Definition wval (w : wnum) : Q :=
  let a := ival (ip w) + match fp w with Some f => fval f | None => 0 end in
  if neg w then - a else a.

Definition wtext (w : wnum) : list ch :=
  (if neg w then [Minus] else []) ++ map Dg (ip w) ++
  match fp w with Some f => Dot :: map Dg f | None => [] end.

(* there is a digit, and an integer does not start with a superfluous zero *)
Definition written (w : wnum) : Prop :=
  match fp w with
  | Some f => (ip w ++ f)%list <> []
  | None => match ip w with [] => False | d :: r => d <> 0%nat \/ r = [] end
  end.

(* what stands between two numbers: nothing, a comma or a space *)
Inductive sep := Nothing | AComma | ASpace.

Definition stext (s : sep) : list ch :=
  match s with Nothing => [] | AComma => [Comma] | ASpace => [Sp] end.

(* nothing exactly before a minus sign *)
Definition fits (x : sep * wnum) : Prop := fst x = Nothing <-> neg (snd x) = true.

Definition text_of (x : wnum) (r : list (sep * wnum)) : list ch :=
  wtext x ++ concat (map (fun y => stext (fst y) ++ wtext (snd y)) r).

Definition proper (x : wnum) (r : list (sep * wnum)) : Prop :=
  written x /\ Forall (fun y => written (snd y) /\ fits y) r.

(* a line with its first number and the others *)
Definition wline : Type := (wnum * list (sep * wnum))%type.

Definition nums (l : wline) : list wnum := fst l :: map snd (snd l).

(* a path: one M line and then c lines (true) and C lines (false) *)
Definition wpath : Type := (wline * list (bool * wline))%type.

(* blanks before and after the numbers of a line *)
Definition padded (b : nat * nat) (l : wline) : list ch :=
  repeat Sp (fst b) ++ text_of (fst l) (snd l) ++ repeat Sp (snd b).

(* the lines after the first; without an entry in the list there are no blanks *)
Fixpoint segs_text (bs : list (nat * nat)) (ls : list (bool * wline)) : list ch :=
  match ls with
  | [] => []
  | (rel, l) :: r => L (if rel then CRel else CAbs) :: padded (hd (0, 0)%nat bs) l ++ segs_text (tl bs) r
  end.

Definition path_text (bs : list (nat * nat)) (p : wpath) : list ch :=
  L MAbs :: padded (hd (0, 0)%nat bs) (fst p) ++ segs_text (tl bs) (snd p).

Definition path_proper (p : wpath) : Prop :=
  (proper (fst (fst p)) (snd (fst p)) /\ length (nums (fst p)) = 2%nat) /\
  Forall (fun l => proper (fst l) (snd l) /\ length (nums l) = 6%nat) (map snd (snd p)).

Definition all_nums (p : wpath) : list wnum := nums (fst p) ++ concat (map nums (map snd (snd p))).

(* all numbers have a point, or none has *)
Definition uniform (p : wpath) : Prop :=
  Forall (fun w => fp w <> None) (all_nums p) \/ Forall (fun w => fp w = None) (all_nums p).

(* three points, relative to the current point in a c line; the last becomes
   the current point *)
Fixpoint absolute (x y : Q) (segs : list (bool * list Q)) : list Q :=
  match segs with
  | (true, [a; b; c; d; e; f]) :: r =>
      [x + a; y + b; x + c; y + d; x + e; y + f] ++ absolute (x + e) (y + f) r
  | (false, [a; b; c; d; e; f]) :: r => [a; b; c; d; e; f] ++ absolute e f r
  | _ => []
  end.

Definition meaning (p : wpath) : list Q :=
  match map wval (nums (fst p)) with
  | [x; y] => [x; y] ++ absolute x y (map (fun l => (fst l, map wval (nums (snd l)))) (snd p))
  | _ => []
  end.

(* same numbers *)
Definition same (l : list num) (m : list Q) : Prop := Forall2 (fun a b => val a == b) l m.

(* numbers in groups of six *)
Fixpoint sixes (l : list Q) : list (list Q) :=
  match l with
  | a :: b :: c :: d :: e :: f :: r => [a; b; c; d; e; f] :: sixes r
  | _ => []
  end.

(* the same with c lines that hold several curves *)
Definition meaning_long (p : wpath) : list Q :=
  match map wval (nums (fst p)) with
  | [x; y] => [x; y] ++ absolute x y (concat (map (fun l => map (pair (fst l)) (sixes (map wval (nums (snd l))))) (snd p)))
  | _ => []
  end.

(* characters of a line after its letter *)
Definition isbody (c : ch) : Prop := match c with L _ | Other => False | _ => True end.

(* depth at most two, along first groups *)
Fixpoint firsts (n : nat) (t : node) : list node :=
  t :: match n, t with
       | S m, Node _ (g :: _) => firsts m g
       | _, _ => []
       end.

Definition has_paths (t : node) : bool := match t with Node [] _ => false | _ => true end.

(* a path somewhere in the figure *)
Inductive in_tree (s : list ch) : node -> Prop :=
| In_here ps gs : In s ps -> in_tree s (Node ps gs)
| In_group ps gs g : In g gs -> in_tree s g -> in_tree s (Node ps gs).
