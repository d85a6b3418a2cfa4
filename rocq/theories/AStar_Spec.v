(* Independent vocabulary for the grid and path properties: no use of the
   search functions of the model. *)
From Coq Require Import ZArith QArith List Bool.
Import ListNotations.
From Verif Require Import Grid_Model.
Open Scope Z_scope.

(* a cell of the grid that is not blocked *)
Definition inside (g : grid) (p : pos) : Prop :=
  0 <= fst p < nx g /\ 0 <= snd p < ny g.
Definition open_cell (g : grid) (p : pos) : Prop := inside g p /\ ~ In p (occ g).

(* king's move *)
Definition king (p q : pos) : Prop :=
  p <> q /\ -1 <= fst q - fst p <= 1 /\ -1 <= snd q - snd p <= 1.

Definition diagonal (p q : pos) : Prop := fst p <> fst q /\ snd p <> snd q.

(* the intended move relation: into a free cell, not around a blocked corner *)
Definition legal (g : grid) (p q : pos) : Prop :=
  king p q /\ open_cell g q /\
  (diagonal p q -> open_cell g (fst p, snd q) /\ open_cell g (fst q, snd p)).

(* a non-empty walk from a to b along E *)
Inductive walk (E : pos -> pos -> Prop) : pos -> pos -> list pos -> Prop :=
| walk_one a : walk E a a [a]
| walk_cons a b c l : E a b -> walk E b c l -> walk E a c (a :: l).

Definition reachable (E : pos -> pos -> Prop) (a b : pos) : Prop :=
  exists l, walk E a b l.

(* length of one move and of a walk, with dc the length of a diagonal move *)
Definition move_len (g : grid) (dc : Q) (p q : pos) : Q :=
  if snd p =? snd q then cw g else if fst p =? fst q then ch g else dc.

Fixpoint walk_len (c : pos -> pos -> Q) (l : list pos) : Q :=
  match l with
  | a :: ((b :: _) as l') => (c a b + walk_len c l')%Q
  | _ => 0%Q
  end.

(* well-formed grid: at least one cell in both directions, positive size *)
Definition wf_grid (g : grid) : Prop :=
  0 < nx g /\ 0 < ny g /\ (0 < gw g)%Q /\ (0 < gh g)%Q.

(* ---- occupancy ---- *)
(* the point z lies strictly inside the bounding box of the points vs *)
Definition in_hull_box (vs : list (Q * Q)) (z : Q * Q) : Prop :=
  (exists a b, In a vs /\ In b vs /\ fst a < fst z /\ fst z < fst b)%Q /\
  (exists a b, In a vs /\ In b vs /\ snd a < snd z /\ snd z < snd b)%Q.

(* the open rectangle of cell p *)
Definition in_cell (g : grid) (p : pos) (z : Q * Q) : Prop :=
  (centre_x g (fst p) - (1#2) * cw g < fst z < centre_x g (fst p) + (1#2) * cw g)%Q /\
  (centre_y g (snd p) - (1#2) * ch g < snd z < centre_y g (snd p) + (1#2) * ch g)%Q.

Definition is_corner (g : grid) (p : pos) (z : Q * Q) : Prop :=
  (fst z == centre_x g (fst p) - (1#2) * cw g \/ fst z == centre_x g (fst p) + (1#2) * cw g)%Q /\
  (snd z == centre_y g (snd p) - (1#2) * ch g \/ snd z == centre_y g (snd p) + (1#2) * ch g)%Q.

(* one of the three incidences the planner looks for *)
Definition touches (g : grid) (vs : list (Q * Q)) (p : pos) : Prop :=
  in_hull_box vs (waypoint g p) \/
  (exists z, is_corner g p z /\ in_hull_box vs z) \/
  (exists v, In v vs /\ in_cell g p v).

(* inflated and rounded vertices of an obstacle of a supported shape *)
Definition obst_points (g : grid) (o : obst) : option (list (Q * Q)) :=
  match oshp o with
  | ORect vx vy => Some (round_vertices (rect_vertices g vx vy (opos o)))
  | OCircle r => Some (round_vertices (circle_vertices g r (opos o)))
  | OOther => None
  end.

Definition known_shape (o : obst) : Prop :=
  match oshp o with
  | ORect vx vy => vx <> [] /\ length vx = length vy
  | OCircle r => True
  | OOther => False
  end.
