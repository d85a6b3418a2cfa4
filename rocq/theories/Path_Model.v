(** Reading the paths of an svg figure (omgtools/gui/svg_reader.py).

    Simplifications.  A character is a digit, a point, a comma, a minus sign, a
    space, one of the four letters of the pattern, or another character; blanks
    other than the space count as other characters.  The value of a token is a
    rational number together with the python type (int or float), so rounding
    and overflow are left out.  eval follows python 3, where an integer other
    than zero does not start with a zero.  The part of the figure that matters
    is the tree of groups with the texts of their paths.  What is written to
    the file is kept as the list of numbers before str is applied to it. *)
From Coq Require Import ZArith QArith List Bool.
Import ListNotations.
Local Open Scope Z_scope.

(* the letters of the pattern, svg_reader.py 62 *)
Inductive letter := MAbs | CAbs | MRel | CRel.

(* a character of the attribute d, svg_reader.py 62 *)
Inductive ch := Dg (d : nat) | Dot | Comma | Minus | Sp | L (l : letter) | Other.

(* the matches of the pattern with the characters after the letter,
   svg_reader.py 62 *)
Fixpoint scan (s : list ch) : list ch * list (letter * list ch) :=
  match s with
  | [] => ([], [])
  | L l :: r => let (run, ls) := scan r in
      ([], match run with [] => ls | _ => (l, run) :: ls end)
  | Other :: r => ([], snd (scan r))
  | c :: r => let (run, ls) := scan r in (c :: run, ls)
  end.

(* lines of a path, svg_reader.py 62 *)
Definition lines (s : list ch) : list (letter * list ch) := snd (scan s).

(* comma to space, minus to space minus, svg_reader.py 67-68 (line 69 has no
   effect as a match holds no other letter) *)
Fixpoint replace (s : list ch) : list ch :=
  match s with
  | [] => []
  | Comma :: r => Sp :: replace r
  | Minus :: r => Sp :: Minus :: replace r
  | c :: r => c :: replace r
  end.

(* leading blanks of strip, svg_reader.py 71 *)
Fixpoint lstrip (s : list ch) : list ch :=
  match s with Sp :: r => lstrip r | _ => s end.

(* strip, svg_reader.py 71 *)
Definition strip (s : list ch) : list ch := rev (lstrip (rev (lstrip s))).

(* split at each space, svg_reader.py 71 *)
Fixpoint split (s : list ch) : list (list ch) :=
  match s with
  | [] => [[]]
  | Sp :: r => [] :: split r
  | c :: r => match split r with t :: ts => (c :: t) :: ts | [] => [[c]] end
  end.

(* a number with its python type, svg_reader.py 71 *)
Record num := { isf : bool; val : Q }.

(* digits at the front of a token, svg_reader.py 71 *)
Fixpoint digs (acc : Z) (n : nat) (s : list ch) : Z * nat * list ch :=
  match s with
  | Dg d :: r => digs (acc * 10 + Z.of_nat d) (S n) r
  | _ => (acc, n, s)
  end.

(* eval of a token without sign, svg_reader.py 71 *)
Definition eval_u (s : list ch) : option num :=
  let '(a, n, r) := digs 0 0 s in
  match r with
  | [] =>
      if Nat.eqb n 0 then None else
      match s with
      | Dg 0 :: _ => if a =? 0 then Some {| isf := false; val := 0 |} else None
      | _ => Some {| isf := false; val := inject_Z a |}
      end
  | Dot :: r' =>
      let '(b, m, r'') := digs a 0 r' in
      match r'' with
      | [] => if Nat.eqb (n + m) 0 then None
              else Some {| isf := true; val := inject_Z b / inject_Z (10 ^ Z.of_nat m) |}
      | _ => None
      end
  | _ => None
  end.

(* eval of a token, svg_reader.py 71; None is a SyntaxError *)
Fixpoint eval (s : list ch) : option num :=
  match s with
  | Minus :: r => option_map (fun x => {| isf := isf x; val := - val x |}) (eval r)
  | _ => eval_u s
  end.

(* map of eval, svg_reader.py 71 *)
Fixpoint evals (l : list (list ch)) : option (list num) :=
  match l with
  | [] => Some []
  | t :: r => match eval t, evals r with Some x, Some y => Some (x :: y) | _, _ => None end
  end.

(* np.array of the numbers: one float makes all of them floats,
   svg_reader.py 71 *)
Definition array (l : list num) : list num :=
  let f := existsb isf l in map (fun x => {| isf := f; val := val x |}) l.

(* newpoints of a line, svg_reader.py 67-71 *)
Definition numbers (body : list ch) : option (list num) :=
  option_map array (evals (split (strip (replace body)))).

(* python's conversion of a float to an int, used by the assignments at
   svg_reader.py 73-74 *)
Definition trunc (q : Q) : Q := inject_Z (Z.quot (Qnum q) (Zpos (Qden q))).

(* storing x plus p in the array that holds x, svg_reader.py 73-74 *)
Definition put (x p : num) : num :=
  {| isf := isf x;
     val := if negb (isf x) && isf p then trunc (val x + val p) else val x + val p |}.

(* newpoints[0:6:2] and newpoints[1:6:2] shifted; n counts the entries that
   are left of the first six, svg_reader.py 73-74 *)
Fixpoint shift (n : nat) (px py : num) (l : list num) : list num :=
  match n, l with
  | S m, x :: r => put x px :: shift m py px r
  | _, _ => l
  end.

(* outcome of reading, svg_reader.py 71-74 *)
Inductive res (A : Type) := Ok (a : A) | SyntaxError | IndexError.
Arguments Ok {A} a.
Arguments SyntaxError {A}.
Arguments IndexError {A}.

(* one pass of the loop over the lines, svg_reader.py 64-77; the points so far
   are kept in reversed order *)
Definition do_line (rp : list num) (l : letter * list ch) : res (list num) :=
  match numbers (snd l) with
  | None => SyntaxError
  | Some new =>
      match fst l with
      | CRel => match rp with
                | py :: px :: _ => Ok (rev (shift 6 px py new) ++ rp)
                | _ => IndexError
                end
      | _ => Ok (rev new ++ rp)
      end
  end.

(* the loop over the lines, svg_reader.py 64-77 *)
Fixpoint do_lines (rp : list num) (ls : list (letter * list ch)) : res (list num) :=
  match ls with
  | [] => Ok rp
  | l :: r => match do_line rp l with
              | Ok rp' => do_lines rp' r
              | SyntaxError => SyntaxError
              | IndexError => IndexError
              end
  end.

(* points of one path, svg_reader.py 62-77 *)
Definition path (s : list ch) : res (list num) :=
  match do_lines [] (lines s) with
  | Ok rp => Ok (rev rp)
  | SyntaxError => SyntaxError
  | IndexError => IndexError
  end.

(* what is written to the file and whether all paths were read,
   svg_reader.py 58-82 *)
Fixpoint write (l : list (list ch)) : list (list num) * bool :=
  match l with
  | [] => ([], true)
  | s :: r => match path s with
              | Ok p => let (w, ok) := write r in (p :: w, ok)
              | _ => ([], false)
              end
  end.

(* the figure: texts of the paths and the groups, svg_reader.py 41-47 *)
Inductive node := Node (paths : list (list ch)) (groups : list node).

(* paths of a node, svg_reader.py 41 *)
Definition paths_of (t : node) : list (list ch) := match t with Node p _ => p end.

(* find of the first group, svg_reader.py 44 *)
Definition group (t : node) : option node :=
  match t with Node _ (g :: _) => Some g | Node _ [] => None end.

(* the search, svg_reader.py 39-53: find gives None when there is no group and
   the error that follows is caught *)
Definition search (t : node) : list (list ch) :=
  match paths_of t with
  | [] => match group t with
          | None => []
          | Some g => match paths_of g with
                      | [] => match group g with None => [] | Some h => paths_of h end
                      | l => l
                      end
          end
  | l => l
  end.

(* convert_path_to_points, svg_reader.py 34-82 *)
Definition convert (t : node) : list (list num) * bool := write (search t).
