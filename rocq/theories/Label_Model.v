(** Names of exported files and filling of templates
    (omgtools/export/export.py).

    Simplifications.  Strings are lists of characters; the characters are those
    of Coq's ascii type.  Reading and writing of the files is left out: a
    function on the text of a file stands for it.  A dictionary is the list of
    its items in the order of iteration.  Values are strings already, so str is
    left out.  An IndexError is None. *)
From Coq Require Import Ascii String List Bool.
Import ListNotations.
Local Open Scope list_scope.

(* strings, export.py 91 *)
Definition str := list ascii.

(* the dot, export.py 91, 92, 99 and 100 *)
Definition dot : ascii := "."%char.

(* the underscore, export.py 92 and 100 *)
Definition bar : ascii := "_"%char.

(* the sign around a key, export.py 191 *)
Definition at_ : ascii := "@"%char.

(* split at a character, export.py 91, 99 and 100 *)
Fixpoint split (c : ascii) (s : str) : list str :=
  match s with
  | [] => [[]]
  | x :: r => if Ascii.eqb x c then [] :: split c r
              else match split c r with t :: ts => (x :: t) :: ts | [] => [[x]] end
  end.

(* add_label for one file, export.py 91-93 *)
Definition add_label (ns f : str) : option str :=
  match rev (split dot f) with
  | e :: b :: _ => Some (b ++ [bar] ++ ns ++ [dot] ++ e)
  | _ => None
  end.

(* rmv_label for one file, export.py 99-101 *)
Definition rmv_label (f : str) : option str :=
  match rev (split bar (hd [] (split dot f))) with
  | _ :: b :: _ => Some (b ++ [dot] ++ last (split dot f) [])
  | _ => None
  end.

(* the lists of add_label and rmv_label, export.py 88-89 and 96-97 *)
Fixpoint for_all (g : str -> option str) (l : list str) : option (list str) :=
  match l with
  | [] => Some []
  | x :: r => match g x, for_all g r with Some y, Some ys => Some (y :: ys) | _, _ => None end
  end.

(* whether a text starts with another, used by replace at export.py 191 *)
Fixpoint starts (p s : str) : bool :=
  match p, s with
  | [], _ => true
  | a :: p', b :: s' => Ascii.eqb a b && starts p' s'
  | _, _ => false
  end.

(* replace for an old text that is not empty; k characters are still part of
   the last occurrence, export.py 191 *)
Fixpoint repl (old new : str) (k : nat) (s : str) : str :=
  match s with
  | [] => []
  | c :: r =>
      match k with
      | S k' => repl old new k' r
      | O => if starts old s then new ++ repl old new (pred (length old)) r
             else c :: repl old new 0 r
      end
  end.

(* body.replace(old, new), export.py 191 *)
Definition replace (old new s : str) : str := repl old new 0 s.

(* the text of a file filled with the data, export.py 189-191 *)
Definition fill (data : list (str * str)) (body : str) : str :=
  fold_left (fun b kv => replace ([at_] ++ fst kv ++ [at_]) (snd kv) b) data body.
