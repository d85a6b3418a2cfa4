(** Conversion of an svg figure to G-code and to obstacles
    (omgtools/gui/svg_reader.py).

    Simplifications.  The text of the xml file is not modelled: an element is
    given by its numbers.  The numbers of a command are kept as numbers, so
    writing them with str and reading them back with float (lines 487-488) is
    taken to be exact.  Reals replace floats.  Exceptions are values. *)
From Coq Require Import Reals List Bool.
Import ListNotations.
Local Open Scope R_scope.

(* used by middle, svg_reader.py 407-408 *)
Definition pt : Type := (R * R)%type.

(* outcome of a python computation; used by normal, svg_reader.py 422-423 *)
Inductive res (A : Type) : Type :=
| Ok (a : A)
| NameError
| RuntimeError
| ZeroDivisionError
| IndexError
| TypeError
| ValueError.
Arguments Ok {A} a.
Arguments NameError {A}.
Arguments RuntimeError {A}.
Arguments ZeroDivisionError {A}.
Arguments IndexError {A}.
Arguments TypeError {A}.
Arguments ValueError {A}.

(* used by normal, svg_reader.py 422-423 *)
Definition bind {A B} (x : res A) (f : A -> res B) : res B :=
  match x with
  | Ok a => f a
  | NameError => NameError
  | RuntimeError => RuntimeError
  | ZeroDivisionError => ZeroDivisionError
  | IndexError => IndexError
  | TypeError => TypeError
  | ValueError => ValueError
  end.

(* used by centre, svg_reader.py 406-458 *)
Definition reqb (a b : R) : bool := if Req_EM_T a b then true else false.
(* used by orient, svg_reader.py 492-500 *)
Definition rltb (a b : R) : bool := if Rlt_dec a b then true else false.

(* division of python floats; used by normal, svg_reader.py 422-423 *)
Definition pdiv (a b : R) : res R := if reqb b 0 then ZeroDivisionError else Ok (a / b).

(* svg_reader.py 407-408: middle of two points *)
Definition middle (a b : pt) : pt := ((fst b + fst a) * (1/2), (snd b + snd a) * (1/2)).

(* svg_reader.py 422-423 (and 428-429, 434-435, 440-441, 445-446, 448-449):
   rico = (b[1]-a[1])/(b[0]-a[0]); normal = -1/rico *)
Definition normal (a b : pt) : res R :=
  bind (pdiv (snd b - snd a) (fst b - fst a)) (fun rico => pdiv (-1) rico).

(* svg_reader.py 406-458: centre of the circle through the first three points.
   In the third and the fifth branch the name x is not bound. *)
Definition centre (p1 p2 p3 : pt) : res pt :=
  let mid1 := middle p1 p2 in
  let mid2 := middle p2 p3 in
  if reqb (fst p1) (fst p2) && reqb (snd p2) (snd p3) then Ok (fst mid1, snd mid2)
  else if reqb (snd p1) (snd p2) && reqb (fst p2) (fst p3) then Ok (fst mid2, snd mid1)
  else if reqb (fst p2) (fst p1) then bind (normal p2 p3) (fun _ => NameError)
  else if reqb (snd p2) (snd p1) then
    bind (normal p2 p3) (fun normal2 =>
    bind (pdiv (snd mid1 - snd mid2) normal2) (fun q => Ok (q + fst mid2, snd mid1)))
  else if reqb (fst p2) (fst p3) then bind (normal p1 p2) (fun _ => NameError)
  else if reqb (snd p2) (snd p3) then
    bind (normal p1 p2) (fun normal1 =>
    bind (pdiv (snd mid2 - snd mid1) normal1) (fun q => Ok (q + fst mid1, snd mid2)))
  else
    bind (normal p1 p2) (fun normal1 =>
    bind (normal p2 p3) (fun normal2 =>
    if reqb normal2 normal1 then RuntimeError
    else
      let cx := (snd mid1 - snd mid2 - normal1 * fst mid1 + normal2 * fst mid2) / (normal2 - normal1) in
      Ok (cx, snd mid1 + normal1 * (cx - fst mid1)))).

(* one relative cubic of a path: two control points and the end, as written in
   the file (y down, relative to the previous end); used by curve, svg_reader.py 365-376 *)
Record bez : Type := { c1 : pt; c2 : pt; e : pt }.

(* svg_reader.py 365-376: a curve is what follows one letter c; it can hold
   several cubics *)
Definition curve : Type := (bez * list bez)%type.

(* elements of the figure, svg_reader.py 335, 355, 364 *)
Inductive child : Type :=
| Line (a b : pt)                    (* <line x1 y1 x2 y2> *)
| Polyline                           (* its tag also holds the word line; it has no x1 *)
| Path (m : pt) (cs : list curve)    (* <path d="Mx,y c ..."> *)
| PathRel                            (* <path> that does not start with M *)
| Other.                             (* ignored *)

(* a command of the program; used by target, svg_reader.py 487-488 *)
Inductive cmd : Type :=
| G00 (p : pt)
| G01 (p : pt)
| G02 (p ij : pt)
| G03 (p ij : pt).

(* svg_reader.py 487-488: X and Y of a command *)
Definition target (c : cmd) : pt :=
  match c with G00 p => p | G01 p => p | G02 p _ => p | G03 p _ => p end.

(* svg_reader.py 346-347, 381: make the y axis point up *)
Definition flip (p : pt) : pt := (fst p, - snd p).

(* used by circle_points, svg_reader.py 387-396 *)
Definition padd (a b : pt) : pt := (fst a + fst b, snd a + snd b).
(* with the above, svg_reader.py 346-347, 381 *)
Definition psub (a b : pt) : pt := (fst a - fst b, snd a - snd b).

(* svg_reader.py 392, 396, 484: [curve[-2], -curve[-1]], the last two numbers of a curve *)
Definition curve_move (c : curve) : pt := flip (e (last (snd c) (fst c))).

(* svg_reader.py 387-396: end of each curve, starting from p *)
Fixpoint circle_points (p : pt) (cs : list curve) : list pt :=
  match cs with
  | [] => []
  | c :: cs => let q := padd (curve_move c) p in q :: circle_points q cs
  end.

(* svg_reader.py 481-484: end of the whole path *)
Definition path_end (p : pt) (cs : list curve) : pt :=
  fold_left (fun q c => padd q (curve_move c)) cs p.

(* svg_reader.py 489-490 *)
Definition dist (a b : pt) : R := sqrt ((fst a - fst b) * (fst a - fst b) + (snd a - snd b) * (snd a - snd b)).

(* svg_reader.py 492-500: start, end and control point of the arc *)
Definition orient (prev pt1 pt2 : pt) (first lastc : curve) : pt * pt * pt :=
  if rltb (dist pt1 prev) (dist pt2 prev)
  then (pt1, pt2, (fst pt1 + fst (c1 (fst first)), snd pt1 - snd (c1 (fst first))))
  else (pt2, pt1, (fst pt2 - fst (e (fst lastc)) + fst (c2 (fst lastc)),
                   snd pt2 + snd (e (fst lastc)) - snd (c2 (fst lastc)))).

(* svg_reader.py 502-517: offsets of the centre and sense of rotation *)
Definition arc_cmd (c : pt) (s : pt * pt * pt) : cmd :=
  let '(start, fin, control) := s in
  let ij := psub c start in
  let v1 := psub start c in
  let v2 := psub control start in
  let vp := fst v1 * snd v2 - fst v2 * snd v1 in
  if rltb vp 0 then G02 fin ij else G03 fin ij.

(* commands written so far (newest first) and the name end_curve, which
   survives from one element to the next; used by do_line, svg_reader.py 336-353 *)
Record st : Type := { out : list cmd; end_curve : option pt }.
(* with the above, svg_reader.py 502-517 *)
Definition st0 : st := {| out := []; end_curve := None |}.

(* svg_reader.py 336-353 *)
Definition do_line (tr : pt) (s : st) (a b : pt) : st :=
  let a' := flip (padd a tr) in
  let b' := flip (padd b tr) in
  let o := match out s with [] => [G00 a'] | o => o end in
  {| out := G01 b' :: o; end_curve := end_curve s |}.

(* svg_reader.py 364-521 for a path that starts with M *)
Definition do_path (s : st) (m : pt) (cs : list curve) : res st :=
  let pt1 := flip m in
  match cs with
  | [] =>
      match end_curve s with
      | None => NameError
      | Some q => Ok {| out := G01 q :: out s; end_curve := Some q |}
      end
  | first :: rest =>
      match circle_points pt1 cs with
      | p2 :: p3 :: _ =>
          bind (centre pt1 p2 p3) (fun c =>
          match out s with
          | [] => IndexError
          | prev :: _ =>
              let o := orient (target prev) pt1 (path_end pt1 cs) first (last rest first) in
              Ok {| out := arc_cmd c o :: out s; end_curve := Some (snd (fst o)) |}
          end)
      | _ => RuntimeError
      end
  end.

(* svg_reader.py 335-523 *)
Definition do_child (tr : pt) (s : st) (c : child) : res st :=
  match c with
  | Line a b => Ok (do_line tr s a b)
  | Polyline => TypeError
  | Path m cs => do_path s m cs
  | PathRel => RuntimeError
  | Other => Ok s
  end.

(* used by gcode, svg_reader.py 326-530 *)
Fixpoint do_children (tr : pt) (s : st) (l : list child) : res st :=
  match l with
  | [] => Ok s
  | c :: l => bind (do_child tr s c) (fun s => do_children tr s l)
  end.

(* svg_reader.py 326-530: the program, in the order of the file *)
Definition gcode (tr : pt) (l : list child) : res (list cmd) :=
  bind (do_children tr st0 l) (fun s => Ok (rev (out s))).
