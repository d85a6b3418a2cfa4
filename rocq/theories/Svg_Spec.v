(** What a figure and a G-code program mean, independently of the converter. *)
From Coq Require Import Reals List.
From Verif Require Import Svg_Model.
Import ListNotations.
Local Open Scope R_scope.

(* squared distance *)
Definition d2 (a b : pt) : R := (fst a - fst b)² + (snd a - snd b)².

Definition equidistant (c p1 p2 p3 : pt) : Prop := d2 c p1 = d2 c p2 /\ d2 c p2 = d2 c p3.

Definition cross (u v : pt) : R := fst u * snd v - snd u * fst v.
Definition dot (u v : pt) : R := fst u * fst v + snd u * snd v.

Definition collinear (p1 p2 p3 : pt) : Prop := cross (psub p2 p1) (psub p3 p2) = 0.

(* a chord that is neither horizontal nor vertical *)
Definition oblique (a b : pt) : Prop := fst a <> fst b /\ snd a <> snd b.

(* a piece of a drawing or of the path of the tool, y up *)
Inductive piece : Type :=
| Seg (a b : pt)
| Arc (clockwise : bool) (c a b : pt).

(* what a machine does with a program: G00 moves without cutting *)
Fixpoint run (pos : pt) (l : list cmd) : list piece :=
  match l with
  | [] => []
  | G00 p :: l => run p l
  | G01 p :: l => Seg pos p :: run p l
  | G02 p ij :: l => Arc true (padd pos ij) pos p :: run p l
  | G03 p ij :: l => Arc false (padd pos ij) pos p :: run p l
  end.

(* the cubics of a path, relative ones made absolute (y down): start, two
   control points and end of each *)
Record cubic : Type := { a0 : pt; a1 : pt; a2 : pt; a3 : pt }.
Fixpoint cubics (p : pt) (l : list bez) : list cubic :=
  match l with
  | [] => []
  | b :: l => {| a0 := p; a1 := padd p (c1 b); a2 := padd p (c2 b); a3 := padd p (e b) |} :: cubics (padd p (e b)) l
  end.

(* the same with the y axis up *)
Definition up (q : cubic) : cubic := {| a0 := flip (a0 q); a1 := flip (a1 q); a2 := flip (a2 q); a3 := flip (a3 q) |}.
(* and run through from the end to the start *)
Definition back (q : cubic) : cubic := {| a0 := a3 q; a1 := a2 q; a2 := a1 q; a3 := a0 q |}.

Definition bern (x0 x1 x2 x3 t : R) : R :=
  (1 - t)^3 * x0 + 3 * (1 - t)^2 * t * x1 + 3 * (1 - t) * t^2 * x2 + t^3 * x3.
Definition at_ (q : cubic) (t : R) : pt :=
  (bern (fst (a0 q)) (fst (a1 q)) (fst (a2 q)) (fst (a3 q)) t,
   bern (snd (a0 q)) (snd (a1 q)) (snd (a2 q)) (snd (a3 q)) t).

(* velocity with which a cubic leaves its first point *)
Definition leaves (q : cubic) (v : pt) : Prop :=
  derivable_pt_lim (fun t => fst (at_ q t)) 0 (fst v) /\
  derivable_pt_lim (fun t => snd (at_ q t)) 0 (snd v).

(* the whole path of the file, y up *)
Definition path_of (m : pt) (cs : list curve) : list cubic :=
  map up (cubics m (flat_map (fun c => fst c :: snd c) cs)).

(* turning clockwise about c when leaving a with velocity v *)
Definition turns_clockwise (c a v : pt) : Prop := cross (psub a c) v < 0.

(* an arc about c that follows the path q1 ... qn forwards or backwards *)
Inductive follows : list cubic -> piece -> Prop :=
| forwards : forall q qs s c v, leaves q v -> (s = true <-> turns_clockwise c (a0 q) v) ->
    follows (q :: qs) (Arc s c (a0 q) (a3 (last qs q)))
| backwards : forall q qs s c v, leaves (back (last qs q)) v ->
    (s = true <-> turns_clockwise c (a3 (last qs q)) v) ->
    follows (q :: qs) (Arc s c (a3 (last qs q)) (a0 q)).

(* all joints of a path lie on the circle about c with squared radius r *)
Definition on_circle (c : pt) (r : R) (qs : list cubic) : Prop :=
  forall q, In q qs -> d2 c (a0 q) = r /\ d2 c (a3 q) = r.

(* the program does what the figure shows: each line is cut from its first to
   its second end, each path is cut in one arc about its centre *)
Inductive shows : list child -> list piece -> Prop :=
| shows_nil : shows [] []
| shows_line : forall a b l ps, shows l ps -> shows (Line a b :: l) (Seg (flip a) (flip b) :: ps)
| shows_path : forall m cs l s c a b r ps, on_circle c r (path_of m cs) ->
    follows (path_of m cs) (Arc s c a b) -> shows l ps -> shows (Path m cs :: l) (Arc s c a b :: ps)
| shows_other : forall l ps, shows l ps -> shows (Other :: l) ps.

(* first and last point of a path, y up *)
Definition first_pt (m : pt) : pt := flip m.
Definition last_pt (m : pt) (cs : list curve) : pt :=
  a3 (last (path_of m cs) {| a0 := flip m; a1 := flip m; a2 := flip m; a3 := flip m |}).

(* a path the converter is meant for: arcs of one circle, one cubic after each
   letter c, and no axis-parallel chord among the first two *)
Definition circular (m : pt) (cs : list curve) : Prop :=
  Forall (fun c => snd c = []) cs /\
  exists q1 q2 qs c r, path_of m cs = q1 :: q2 :: qs /\ on_circle c r (path_of m cs) /\
    oblique (a0 q1) (a3 q1) /\ oblique (a3 q1) (a3 q2) /\ a0 q1 <> a3 q2.

(* figure without gaps: each element starts where the one before stopped; a
   path can be given in either direction, a line cannot *)
Fixpoint connected (pos : pt) (l : list child) : Prop :=
  match l with
  | [] => True
  | Line a b :: l => pos = flip a /\ connected (flip b) l
  | Path m cs :: l => circular m cs /\
      ((pos = first_pt m /\ pos <> last_pt m cs /\ connected (last_pt m cs) l) \/
       (pos = last_pt m cs /\ connected (first_pt m) l))
  | Other :: l => connected pos l
  | _ :: _ => False
  end.
