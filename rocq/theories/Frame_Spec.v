(* Notions in which the properties of frames are stated: points, rectangles
   given by their limits, regions of the plane, motion at constant speed.
   Nothing here refers to the functions of frame.py. *)
From Coq Require Import QArith Qabs List Bool.
From Verif Require Import Frame_Model.
Import ListNotations.
Open Scope Q_scope.

Definition pt_eq (p q : pt) : Prop := fst p == fst q /\ snd p == snd q.
Definition lim_eq (a b : lim) : Prop :=
  xlo a == xlo b /\ ylo a == ylo b /\ xhi a == xhi b /\ yhi a == yhi b.

(* limits of a rectangle with at least one point, resp. with an interior *)
Definition wf (l : lim) : Prop := xlo l <= xhi l /\ ylo l <= yhi l.
Definition fat (l : lim) : Prop := xlo l < xhi l /\ ylo l < yhi l.

(* p lies in the rectangle, at least b away from its border *)
Definition clearance (l : lim) (b : Q) (p : pt) : Prop :=
  xlo l + b <= fst p <= xhi l - b /\ ylo l + b <= snd p <= yhi l - b.
Definition contains (l : lim) (p : pt) : Prop := clearance l 0 p.
Definition interior (l : lim) (p : pt) : Prop :=
  xlo l < fst p < xhi l /\ ylo l < snd p < yhi l.

(* the rectangle a lies in the rectangle b *)
Definition within (a b : lim) : Prop :=
  xlo b <= xlo a /\ ylo b <= ylo a /\ xhi a <= xhi b /\ yhi a <= yhi b.

(* points of an axis-aligned rectangle, of a disc *)
Definition in_rect (w h : Q) (pos p : pt) : Prop :=
  Qabs (fst p - fst pos) <= (1 # 2) * w /\ Qabs (snd p - snd pos) <= (1 # 2) * h.
Definition in_disc (r : Q) (pos p : pt) : Prop :=
  (fst p - fst pos) * (fst p - fst pos) + (snd p - snd pos) * (snd p - snd pos) <= r * r.
Definition occupies (o : obstacle) (p : pt) : Prop :=
  match o_shape o with
  | SRect w h _ _ => in_rect w h (o_pos o) p
  | SCirc r => in_disc r (o_pos o) p
  | SPoly _ _ _ => False
  end.
Definition shape_ok (s : shape) : Prop :=
  match s with SRect w h _ _ => 0 <= w /\ 0 <= h | SCirc r => 0 <= r | SPoly _ _ _ => True end.
Definition touches (l : lim) (o : obstacle) : Prop := exists p, contains l p /\ occupies o p.

(* the obstacle never gets a velocity from its simulation data *)
Definition never_pushed (o : obstacle) : Prop :=
  match o_traj o with None => True | Some vs => forall v, In v vs -> pt_eq v (0, 0) end.
(* a Rectangle with orientation 0 or a Circle *)
Definition plain (s : shape) : Prop :=
  match s with
  | SRect _ _ c sn => c == 1 /\ sn == 0
  | SCirc _ => True
  | SPoly _ _ _ => False
  end.

(* position after time t at constant velocity *)
Definition at_time (p v : pt) (t : Q) : pt := (fst p + t * fst v, snd p + t * snd v).

(* q lies on the segment from p1 to p2 *)
Definition on_segment (p1 p2 q : pt) : Prop :=
  exists t, 0 <= t <= 1 /\ pt_eq q (fst p1 + t * (fst p2 - fst p1), snd p1 + t * (snd p2 - snd p1)).

(* the rectangle l contains no point at all of an obstacle's bounding box:
   stated with the bounding box [ob] of the obstacle *)
Definition disjoint (a b : lim) : Prop :=
  xhi a < xlo b \/ xhi b < xlo a \/ yhi a < ylo b \/ yhi b < ylo a.
(* bounding box of a plain obstacle *)
Definition box (o : obstacle) : lim :=
  match o_shape o with
  | SRect w h _ _ =>
      Lim (fst (o_pos o) - (1 # 2) * w) (snd (o_pos o) - (1 # 2) * h)
          (fst (o_pos o) + (1 # 2) * w) (snd (o_pos o) + (1 # 2) * h)
  | SCirc r =>
      Lim (fst (o_pos o) - r) (snd (o_pos o) - r) (fst (o_pos o) + r) (snd (o_pos o) + r)
  | SPoly _ _ _ => Lim 0 0 0 0
  end.
(* every stationary obstacle of the list is plain, with sizes >= 0 *)
Definition all_plain (obs : list obstacle) : Prop :=
  forall o, In o obs -> never_pushed o -> plain (o_shape o) /\ shape_ok (o_shape o).
(* no stationary obstacle of the list has its bounding box in contact with l *)
Definition free (l : lim) (obs : list obstacle) : Prop :=
  forall o, In o obs -> never_pushed o -> disjoint l (box o).

(* a path from p that never turns back in x nor in y *)
(* from a to b in the direction given by up *)
Definition onward (up : bool) (a b : Q) : Prop := if up then a <= b else b <= a.
Fixpoint staircase (ux uy : bool) (p : pt) (ws : list pt) : Prop :=
  match ws with
  | [] => True
  | w :: rest => onward ux (fst p) (fst w) /\ onward uy (snd p) (snd w) /\ staircase ux uy w rest
  end.
(* the start keeps distance vm from the border, the waypoints are inside *)
Definition stays (l : lim) (start : pt) (vm : Q) (ws : list pt) : Prop :=
  clearance l vm start /\ forall p, In p ws -> interior l p.

(* corners of a rectangle *)
Definition corners (l : lim) : list pt := [(xlo l, ylo l); (xlo l, yhi l); (xhi l, yhi l); (xhi l, ylo l)].
(* the points of a plain obstacle by which its motion is followed *)
Definition tracked (o : obstacle) : list pt :=
  match o_shape o with SCirc _ => o_pos o :: corners (box o) | _ => corners (box o) end.
