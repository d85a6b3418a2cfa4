(** Include guards of exported headers (omgtools/export/export.py).

    Simplifications.  Strings are lists of characters, as in Label_Model.  A
    function on the text of a header stands for reading and writing the file. *)
From Coq Require Import Ascii String List Bool.
From Verif Require Import Label_Model.
Import ListNotations.
Local Open Scope list_scope.

(* the text that is looked for, export.py 154 *)
Definition ifndef : str := list_ascii_of_string "#ifndef".

(* end of a line, export.py 155 *)
Definition nl : ascii := ascii_of_nat 10.

(* blank, export.py 155 *)
Definition sp : ascii := " "%char.

(* the text from the first occurrence on, export.py 154-155 *)
Fixpoint from (pat s : str) : option str :=
  if starts pat s then Some s else match s with [] => None | _ :: r => from pat r end.

(* body[ind:]; find gives -1 when there is no occurrence, which leaves the last
   character, export.py 154-155 *)
Definition cut (body : str) : str :=
  match from ifndef body with
  | Some t => t
  | None => match rev body with [] => [] | c :: _ => [c] end
  end.

(* the label: last word of the first line of that text, export.py 155 *)
Definition label (body : str) : str :=
  last (split sp (hd [] (split nl (cut body)))) [].

(* replace, where an empty old text is found around every character,
   export.py 156 *)
Definition replace_any (old new s : str) : str :=
  match old with
  | [] => new ++ flat_map (fun c => c :: new) s
  | _ => replace old new s
  end.

(* upper for one character, export.py 156 *)
Definition up (c : ascii) : ascii :=
  let n := nat_of_ascii c in
  if (Nat.leb 97 n && Nat.leb n 122)%bool then ascii_of_nat (n - 32) else c.

(* the new label, export.py 156 *)
Definition new_label (ns l : str) : str := l ++ [bar] ++ map up ns.

(* set_includeguards for one header, export.py 153-156 *)
Definition set_guard (ns body : str) : str :=
  replace_any (label body) (new_label ns (label body)) body.
