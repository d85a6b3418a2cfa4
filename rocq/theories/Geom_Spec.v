(* Plane and space geometry, stated without reference to the code. *)
Require Import Reals List.
Import ListNotations.
Open Scope R_scope.

Notation P2 := (R * R)%type.
Definition dist (p q : P2) : R := sqrt (Rsqr (fst p - fst q) + Rsqr (snd p - snd q)).

(* the point a fraction s of the way from p to q *)
Definition between (s : R) (p q : P2) : P2 :=
  (fst p + s * (fst q - fst p), snd p + s * (snd q - snd p)).
Definition on_line (p q x : P2) : Prop := exists s, x = between s p q.
Definition on_segment (p q x : P2) : Prop := exists s, 0 <= s <= 1 /\ x = between s p q.

(* convex hull of a list of points *)
Inductive hull (vs : list P2) : P2 -> Prop :=
| hull_vertex : forall v, In v vs -> hull vs v
| hull_mix : forall s p q, 0 <= s <= 1 -> hull vs p -> hull vs q -> hull vs (between s p q).

(* points at distance at most r from the hull *)
Definition inflated (vs : list P2) (r : R) (x : P2) : Prop :=
  exists c, hull vs c /\ dist c x <= r.

(* axis-aligned box with centre c, full width w and height h *)
Definition in_box (c : P2) (w h : R) (x : P2) : Prop :=
  Rabs (fst x - fst c) <= w / 2 /\ Rabs (snd x - snd c) <= h / 2.
(* rectangle turned over the angle th: the components of x - c along the two
   axes of the rectangle *)
Definition in_rect (c : P2) (w h th : R) (x : P2) : Prop :=
  Rabs (cos th * (fst x - fst c) + sin th * (snd x - snd c)) <= w / 2 /\
  Rabs (- sin th * (fst x - fst c) + cos th * (snd x - snd c)) <= h / 2.

Definition moved (d p : P2) : P2 := (fst p + fst d, snd p + snd d).
(* turning over the angle th around the origin *)
Definition turned (th : R) (p : P2) : P2 :=
  (fst p * cos th - snd p * sin th, fst p * sin th + snd p * cos th).

(* signed area test: x is to the right of (or on) the directed line p -> q *)
Definition right_of (p q x : P2) : Prop :=
  (fst q - fst p) * (snd x - snd p) - (snd q - snd p) * (fst x - fst p) <= 0.

(* the boundary of a closed polygon: its consecutive vertices joined *)
Definition edge (vs : list P2) (p q : P2) : Prop :=
  exists k, (k < length vs)%nat /\ nth_error vs k = Some p /\
            nth_error vs (S k mod length vs) = Some q.
Definition boundary (vs : list P2) (x : P2) : Prop :=
  exists p q, edge vs p q /\ on_segment p q x.

Notation P3 := (R * R * R)%type.
Definition inner3 (p q : P3) : R :=
  fst (fst p) * fst (fst q) + snd (fst p) * snd (fst q) + snd p * snd q.
Definition diff3 (p q : P3) : P3 :=
  (fst (fst p) - fst (fst q), snd (fst p) - snd (fst q), snd p - snd q).
Definition plus3 (p q : P3) : P3 :=
  (fst (fst p) + fst (fst q), snd (fst p) + snd (fst q), snd p + snd q).
Definition dist3 (p q : P3) : R := sqrt (inner3 (diff3 p q) (diff3 p q)).
Inductive hull3 (vs : list P3) : P3 -> Prop :=
| hull3_vertex : forall v, In v vs -> hull3 vs v
| hull3_mix : forall s p q, 0 <= s <= 1 -> hull3 vs p -> hull3 vs q ->
    hull3 vs (fst (fst p) + s * (fst (fst q) - fst (fst p)),
              snd (fst p) + s * (snd (fst q) - snd (fst p)),
              snd p + s * (snd q - snd p)).

(* xmin, ymin, xmax, ymax *)
Definition in_limits (l : R * R * R * R) (x : P2) : Prop :=
  let '(xmin, ymin, xmax, ymax) := l in xmin <= fst x <= xmax /\ ymin <= snd x <= ymax.
(* a rectangular room given by its limits and its position *)
Definition in_room (room : (R * R) * (R * R)) (rpos x : P2) : Prop :=
  fst (fst room) + fst rpos <= fst x <= snd (fst room) + fst rpos /\
  fst (snd room) + snd rpos <= snd x <= snd (snd room) + snd rpos.
(* the point of the vehicle body that a checkpoint stands for *)
Definition world (position : P2) (th off : R) (chck : P2) : P2 :=
  moved (moved (off * cos th, off * sin th) position) (turned th chck).

(* turns about the three axes *)
Definition turn_x (r : R) (v : P3) : P3 :=
  (fst (fst v), cos r * snd (fst v) - sin r * snd v, sin r * snd (fst v) + cos r * snd v).
Definition turn_y (r : R) (v : P3) : P3 :=
  (cos r * fst (fst v) + sin r * snd v, snd (fst v), - sin r * fst (fst v) + cos r * snd v).
Definition turn_z (r : R) (v : P3) : P3 :=
  (cos r * fst (fst v) - sin r * snd (fst v), sin r * fst (fst v) + cos r * snd (fst v), snd v).
