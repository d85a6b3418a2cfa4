(* Model of omgtools/basics/geometry.py and the parts of basics/shape.py it
   relies on, over exact reals.  A point of the plane is a pair; a 2 x n vertex
   array is the list of its columns. *)
Require Import Reals List ZArith Lra Bool.
Import ListNotations.
Open Scope bool_scope.
Open Scope R_scope.

Notation pt := (R * R)%type.
(* used by limits_overlap, geometry.py 209-229 *)
Definition Rleb (x y : R) : bool := if Rle_dec x y then true else false.
(* used by distance_to_rectangle, geometry.py 32-67 *)
Definition Rltb (x y : R) : bool := if Rlt_dec x y then true else false.
(* used by intersect_lines, geometry.py 97-111 *)
Definition Reqb0 (x : R) : bool := if Req_EM_T x 0 then true else false.

(* geometry.py 23-30, distance_between_points: None is the ValueError *)
Fixpoint sqdist (p q : list R) : option R :=
  match p, q with
  | [], [] => Some 0
  | x :: p', y :: q' =>
      match sqdist p' q' with Some d => Some ((y - x) ^ 2 + d) | None => None end
  | _, _ => None
  end.
(* with the above, geometry.py 23-30 *)
Definition distance_between_points (p q : list R) : option R :=
  match sqdist p q with Some d => Some (sqrt d) | None => None end.

(* the same for two points of the plane; with geometry.py 23-30 *)
Definition dist2 (p q : pt) : R := sqrt ((fst q - fst p) ^ 2 + (snd q - snd p) ^ 2).

(* geometry.py 69-73, distance_to_line *)
Definition distance_to_line (p v1 v2 : pt) : R :=
  Rabs ((snd v2 - snd v1) * fst p - (fst v2 - fst v1) * snd p + fst v2 * snd v1 - snd v2 * fst v1)
  / sqrt ((snd v2 - snd v1) ^ 2 + (fst v2 - fst v1) ^ 2).

(* np.amin / np.amax along a row; with geometry.py 69-73 *)
Definition row_min (l : list R) (d : R) : R := fold_right Rmin d l.
(* with the above, geometry.py 69-73 *)
Definition row_max (l : list R) (d : R) : R := fold_right Rmax d l.
(* with the above, geometry.py 69-73 *)
Definition xs (vs : list pt) := map fst vs.
(* with the above, geometry.py 69-73 *)
Definition ys (vs : list pt) := map snd vs.
(* with the above, geometry.py 69-73 *)
Definition amin (l : list R) : R := match l with [] => 0 | x :: l' => row_min l' x end.
(* with the above, geometry.py 69-73 *)
Definition amax (l : list R) : R := match l with [] => 0 | x :: l' => row_max l' x end.

(* used by distance_to_rectangle, geometry.py 32-67 *)
Definition shift (d : pt) (v : pt) : pt := (fst v + fst d, snd v + snd d).

(* geometry.py 32-67, distance_to_rectangle.  Lines 35-37 add the position to
   the vertex array of the rectangle itself; the result is the distance and the
   array that the rectangle is left with. *)
Definition distance_to_rectangle (p : pt) (vertices : list pt) (pos : pt) : (R * R) * list pt :=
  let vs := map (shift pos) vertices in
  let x1 := amin (xs vs) in let y1 := amax (ys vs) in
  let x2 := amax (xs vs) in let y2 := amin (ys vs) in
  let v1 := (x1, y1) in let v2 := (x1, y2) in let v3 := (x2, y2) in let v4 := (x2, y1) in
  let dist12 := - distance_to_line p v1 v2 in
  let dist23 := distance_to_line p v2 v3 in
  let dist34 := distance_to_line p v3 v4 in
  let dist41 := - distance_to_line p v4 v1 in
  ((if Rltb (Rabs dist12) (Rabs dist34) then dist12 else dist34,
    if Rltb (Rabs dist23) (Rabs dist41) then dist23 else dist41), vs).

(* geometry.py 75-82, order_is_ccw *)
Definition order_is_ccw (p1 p2 p3 : pt) : bool :=
  Rltb ((snd p2 - snd p1) * (fst p3 - fst p1)) ((snd p3 - snd p1) * (fst p2 - fst p1)).

(* geometry.py 84-95, intersect_line_segments *)
Definition intersect_line_segments (p1 p2 p3 p4 : pt) : bool :=
  xorb (order_is_ccw p1 p3 p4) (order_is_ccw p2 p3 p4) &&
  xorb (order_is_ccw p1 p2 p3) (order_is_ccw p1 p2 p4).

(* geometry.py 97-111, intersect_lines *)
Definition intersect_lines (l1 l2 : pt * pt) : option pt :=
  let '((x1, y1), (x2, y2)) := l1 in
  let '((x3, y3), (x4, y4)) := l2 in
  let den := (x1 - x2) * (y3 - y4) - (y1 - y2) * (x3 - x4) in
  if Reqb0 den then None
  else Some (((x1 * y2 - y1 * x2) * (x3 - x4) - (x1 - x2) * (x3 * y4 - y3 * x4)) / den,
             ((x1 * y2 - y1 * x2) * (y3 - y4) - (y1 - y2) * (x3 * y4 - y3 * x4)) / den).

(* consecutive vertices, the last one joined to the first: the sides; with geometry.py 97-111 *)
Fixpoint pairs_from (first : pt) (vs : list pt) : list (pt * pt) :=
  match vs with
  | [] => []
  | [v] => [(v, first)]
  | v :: ((w :: _) as vs') => (v, w) :: pairs_from first vs'
  end.
(* with the above, geometry.py 97-111 *)
Definition sides (vs : list pt) : list (pt * pt) :=
  match vs with [] => [] | v :: _ => pairs_from v vs end.

(* shape.py 158-171, Polyhedron.get_hyperplanes, one side *)
Definition hyperplane (pos : pt) (side : pt * pt) : pt * R :=
  let '(v, w) := side in
  let vx := fst w - fst v in let vy := snd w - snd v in
  let n := sqrt (vx ^ 2 + vy ^ 2) in
  let a := (- vy / n, vx / n) in
  (a, fst a * (fst w + fst pos) + snd a * (snd w + snd pos)).
(* with the above, shape.py 158-171 *)
Definition get_hyperplanes (vs : list pt) (pos : pt) : list (pt * R) :=
  map (hyperplane pos) (sides vs).

(* geometry.py 113-124, point_in_polyhedron *)
Definition point_in_polyhedron (p : pt) (vs : list pt) (pos : pt) (margin : R) : bool :=
  forallb (fun h => negb (Rltb 0 (fst (fst h) * fst p + snd (fst h) * snd p - snd h - margin)))
    (get_hyperplanes vs pos).

(* geometry.py 126-167, circle_polyhedron_intersection.  The array of vertices
   has two rows, so the loop of line 147 visits columns 0 and 1 only. *)
Definition eps6 : R := 1 / 1000000.
(* with the above, geometry.py 126-167 *)
Definition foot (c : pt) (side : pt * pt) : pt :=
  let '((x1, y1), (x2, y2)) := side in
  let k := ((y2 - y1) * (fst c - x1) - (x2 - x1) * (snd c - y1)) / ((y2 - y1) ^ 2 + (x2 - x1) ^ 2) in
  (fst c - k * (y2 - y1), snd c + k * (x2 - x1)).
(* with the above, geometry.py 126-167 *)
Definition side_hit (c : pt) (r : R) (side : pt * pt) : bool :=
  let '((x1, y1), (x2, y2)) := side in
  let '(x4, y4) := foot c side in
  ((Rleb (x1 - eps6) x4 && Rleb x4 (x2 + eps6) && Rleb (y1 - eps6) y4 && Rleb y4 (y2 + eps6)) ||
   (Rleb x4 (x1 + eps6) && Rleb (x2 - eps6) x4 && Rleb y4 (y1 + eps6) && Rleb (y2 - eps6) y4)) &&
  Rleb (dist2 c (x4, y4)) r.
(* with the above, geometry.py 126-167 *)
Definition circle_polyhedron_intersection (c : pt) (r : R) (vertices : list pt) (pos : pt) : bool :=
  let vs := map (shift pos) vertices in
  existsb (fun v => Rleb (dist2 c v) r) (firstn 2 vs) || existsb (side_hit c r) (sides vs).

(* geometry.py 169-207, point_in_rectangle; limits are xmin, ymin, xmax, ymax *)
Definition limits : Type := (R * R * R * R)%type.
(* with the above, geometry.py 169-207 *)
Definition in_interval (lo x hi : R) : bool := Rleb lo x && Rleb x hi.
(* geometry.py 174-191 *)
Definition point_in_rectangle (p : pt) (l : limits) (distance : R) : bool :=
  let '(xmin, ymin, xmax, ymax) := l in
  in_interval (xmin + distance) (fst p) (xmax - distance) &&
  in_interval (ymin + distance) (snd p) (ymax - distance).
(* with the above, geometry.py 174-191 *)
Definition point_in_rectangle_xy (p : pt) (l : limits) (distance : R) : list bool :=
  let '(xmin, ymin, xmax, ymax) := l in
  [in_interval (xmin + distance) (fst p) (xmax - distance);
   in_interval (ymin + distance) (snd p) (ymax - distance)].
(* geometry.py 193-205.  round is rounding half up, which is what round does for
   non-negative numbers in Python 2; Python 3 differs on exact halves only. *)
Definition n_checks (horizon : R) : Z := (Int_part (horizon / (1 / 2) + 1 / 2) + 1)%Z.
(* with the above, geometry.py 193-205 *)
Definition moving_point_in_rectangle (p : pt) (l : limits) (horizon : R) (v : pt) : bool :=
  let '(xmin, ymin, xmax, ymax) := l in
  let n := n_checks horizon in
  let ts := horizon / IZR n in
  existsb (fun k => in_interval xmin (fst p + INR k * ts * fst v) xmax &&
                    in_interval ymin (snd p + INR k * ts * snd v) ymax)
    (seq 0 (Z.to_nat (n + 1))).

(* ---------- shapes ---------- *)

(* shape.py 38-44, Shape2D.rotate *)
Definition rotate (th : R) (v : pt) : pt :=
  (cos th * fst v - sin th * snd v, sin th * fst v + cos th * snd v).

(* np.linalg.solve of a 2x2 system with rows a0, a1 (the code would raise for a
   singular matrix; Cramer's rule gives the solution otherwise); with shape.py 38-44 *)
Definition solve2 (a0 a1 : pt) (b0 b1 : R) : pt :=
  let det := fst a0 * snd a1 - snd a0 * fst a1 in
  ((b0 * snd a1 - snd a0 * b1) / det, (fst a0 * b1 - b0 * fst a1) / det).

(* shape.py 200-212 / 222-236: intersections of the lines with normals
   (sin l*dth, cos l*dth) at distance dist l *)
Definition face (dth : R) (l : nat) : pt := (sin (INR l * dth), cos (INR l * dth)).
(* with the above, shape.py 200-212 *)
Definition face_vertex (n : nat) (dth : R) (d : nat -> R) (l : nat) : pt :=
  solve2 (face dth l) (face dth ((l + 1) mod n)) (d l) (d ((l + 1) mod n)).
(* with the above, shape.py 200-212 *)
Definition regular_vertices (radius : R) (n : nat) : list pt :=
  map (face_vertex n (2 * PI / INR n) (fun _ => radius * cos (PI / INR n))) (seq 0 n).
(* with the above, shape.py 200-212 *)
Definition rectangle_base (w h : R) : list pt :=
  map (face_vertex 4 (PI / 2) (fun l => nth l [h / 2; w / 2; h / 2; w / 2] 0)) (seq 0 4).
(* shape.py 137, 217-220: a Rectangle with its orientation *)
Definition rectangle_vertices (w h th : R) : list pt := map (rotate th) (rectangle_base w h).

(* shape.py 152-156, Polyhedron.get_canvas_limits *)
Definition canvas_limits (vs : list pt) : (R * R) * (R * R) :=
  ((amin (xs vs), amax (xs vs)), (amin (ys vs), amax (ys vs))).

(* geometry.py 209-229, rectangles_overlap; None is the RuntimeError *)
Definition limits_overlap (l1 : (R * R) * (R * R)) (pos1 : pt) (l2 : (R * R) * (R * R)) (pos2 : pt) : bool :=
  let '((xmin1, xmax1), (ymin1, ymax1)) := l1 in
  let '((xmin2, xmax2), (ymin2, ymax2)) := l2 in
  Rleb (xmin2 + fst pos2) (xmax1 + fst pos1) && Rleb (xmin1 + fst pos1) (xmax2 + fst pos2) &&
  Rleb (ymin2 + snd pos2) (ymax1 + snd pos1) && Rleb (ymin1 + snd pos1) (ymax2 + snd pos2).
(* with the above, geometry.py 209-229 *)
Record rect := mkRect { rw : R; rh : R; rth : R }.
(* with the above, geometry.py 209-229 *)
Definition rlimits (s : rect) := canvas_limits (rectangle_vertices (rw s) (rh s) (rth s)).
(* with the above, geometry.py 209-229 *)
Definition rectangles_overlap (s1 : rect) (pos1 : pt) (s2 : rect) (pos2 : pt) : option bool :=
  if Reqb0 (rth s1) && Reqb0 (rth s2)
  then Some (limits_overlap (rlimits s1) pos1 (rlimits s2) pos2) else None.

(* geometry.py 231-262, compute_rectangle_overlap_center; None is the
   RuntimeError of line 262 *)
Definition overlap_center (s1 : rect) (pos1 : pt) (s2 : rect) (pos2 : pt) : option pt :=
  let '((xmin1, xmax1), (ymin1, ymax1)) := rlimits s1 in
  let '((xmin2, xmax2), (ymin2, ymax2)) := rlimits s2 in
  if limits_overlap (rlimits s1) pos1 (rlimits s2) pos2 then
    let xmin3 := Rmax (xmin1 + fst pos1) (xmin2 + fst pos2) in
    let xmax3 := Rmin (xmax1 + fst pos1) (xmax2 + fst pos2) in
    let ymin3 := Rmax (ymin1 + snd pos1) (ymin2 + snd pos2) in
    let ymax3 := Rmin (ymax1 + snd pos1) (ymax2 + snd pos2) in
    Some (xmin3 + (xmax3 - xmin3) * (1 / 2), ymin3 + (ymax3 - ymin3) * (1 / 2))
  else None.

(* shape.py 269-279, Shape3D.rotate with roll, pitch, yaw *)
Notation pt3 := (R * R * R)%type.
(* with the above, geometry.py 231-262 *)
Definition rotate3 (roll pitch yaw : R) (v : pt3) : pt3 :=
  let '(x, y, z) := v in
  let cpsi := cos yaw in let spsi := sin yaw in
  let cth := cos pitch in let sth := sin pitch in
  let cphi := cos roll in let sphi := sin roll in
  (cth * cpsi * x + (sphi * sth * cpsi - cphi * spsi) * y + (cphi * sth * cpsi + sphi * spsi) * z,
   cth * spsi * x + (sphi * sth * spsi + cphi * cpsi) * y + (cphi * sth * spsi - sphi * cpsi) * z,
   - sth * x + sphi * cth * y + cphi * cth * z).

(* ---------- obstacles ---------- *)

(* environment/obstacle.py 388-474, Obstacle2D.overlaps_with for two circles
   (392-406), a circle and a polyhedron (407-412, 417-422), two rectangles
   (424-468).  Other pairs raise. *)
Inductive oshape2 := SCircle (r : R) | SRect (s : rect) | SPoly (vs : list pt).
(* with the above, obstacle.py 388-474 *)
Definition verts (s : oshape2) : list pt :=
  match s with SCircle _ => [] | SRect q => rectangle_vertices (rw q) (rh q) (rth q) | SPoly vs => vs end.
(* with the above, obstacle.py 388-474 *)
Definition circle_poly (c : pt) (r : R) (vs : list pt) (pos : pt) : bool :=
  point_in_polyhedron c vs pos 0 || circle_polyhedron_intersection c r vs pos.
(* with the above, obstacle.py 388-474 *)
Definition overlaps_with (s : oshape2) (pos : pt) (o : oshape2) (opos : pt) : option bool :=
  match s, o with
  | SCircle r, SCircle r' => Some (Rltb (dist2 pos opos) (r + r'))
  | SCircle r, _ => Some (circle_poly pos r (verts o) opos)
  | _, SCircle r' => Some (circle_poly opos r' (verts s) pos)
  | SRect q, SRect q' => if Reqb0 (rth q') then rectangles_overlap q' opos q pos else None
  | _, _ => None
  end.

(* environment/obstacle.py 476-508, Obstacle2D.is_outside_of a rectangular room *)
Definition is_outside_of (s : oshape2) (pos : pt) (room : (R * R) * (R * R)) (rpos : pt) : bool :=
  let '((xmin, xmax), (ymin, ymax)) := room in
  let inx x := in_interval (xmin + fst rpos) x (xmax + fst rpos) in
  let iny y := in_interval (ymin + snd rpos) y (ymax + snd rpos) in
  match s with
  | SCircle r =>
      negb (inx (0 + fst pos + r)) || negb (iny (0 + snd pos + r)) ||
      negb (inx (0 + fst pos - r)) || negb (iny (0 + snd pos - r))
  | _ => existsb (fun v => negb (inx (fst v + fst pos)) || negb (iny (snd v + snd pos))) (verts s)
  end.

(* ---------- collision constraints ---------- *)

(* vehicles/vehicle.py 147-158: the expression constrained to be <= 0 for one
   checkpoint, at one instant; tg is tg_ha, off the trailer offset *)
Definition veh_con (a : pt) (b : R) (chck : pt) (rad sl sd eps : R) (position : pt) (tg off : R) : R :=
  (fst a * fst chck + snd a * snd chck) * (1 - tg ^ 2) +
  (- fst a * snd chck + snd a * fst chck) * (2 * tg) +
  (fst a * (fst position * (1 + tg ^ 2) + off * (1 - tg ^ 2)) +
   snd a * (snd position * (1 + tg ^ 2) + off * (2 * tg))) +
  (- b + sl * rad + sd - eps) * (1 + tg ^ 2).
(* environment/obstacle.py 334-343: one checkpoint; cs, sn, w are the values of
   self.cos, self.sin and self.gon_weight *)
Definition obs_con (a : pt) (b : R) (chck : pt) (rad : R) (pos : pt) (cs sn w : R) : R :=
  - (fst a * (fst pos * w + fst chck * cs - snd chck * sn) +
     snd a * (snd pos * w + fst chck * sn + snd chck * cs)) + w * (b + rad).
(* environment/environment.py 137-138 *)
Definition norm_con (a : pt) : R := fst a * fst a + snd a * snd a - 1.
(* vehicles/vehicle.py 174-177: the four room constraints of one checkpoint *)
Definition room_cons (lims : (R * R) * (R * R)) (rpos : pt) (chck position : pt) (rad : R) : list R :=
  [ - (fst chck + fst position) + (fst (fst lims) + fst rpos) + rad;
    (fst chck + fst position) - (snd (fst lims) + fst rpos) + rad;
    - (snd chck + snd position) + (fst (snd lims) + snd rpos) + rad;
    (snd chck + snd position) - (snd (snd lims) + snd rpos) + rad ].
(* vehicles/vehicle.py 178-190: room given by hyperplanes *)
Definition room_hyp_con (h : pt * R) (chck : pt) (rad : R) (position : pt) (tg off : R) : R :=
  veh_con (fst h) (snd h) chck rad 1 0 0 position tg off.
(* vehicles/vehicle.py 219-221 and environment/obstacle.py 528-533, 3D *)
Definition dot3 (a p : pt3) : R :=
  let '(a0, a1, a2) := a in let '(p0, p1, p2) := p in a0 * p0 + a1 * p1 + a2 * p2.
(* with the above, vehicle.py 219-221 *)
Definition add3 (p q : pt3) : pt3 :=
  let '(p0, p1, p2) := p in let '(q0, q1, q2) := q in (p0 + q0, p1 + q1, p2 + q2).
(* with the above, vehicle.py 219-221 *)
Definition veh_con3 (a : pt3) (b : R) (chck position : pt3) (rad sd eps : R) : R :=
  dot3 a (add3 chck position) - b + rad + sd - eps.
(* with the above, vehicle.py 219-221 *)
Definition obs_con3 (a : pt3) (b : R) (chck pos : pt3) (rad : R) : R :=
  - dot3 a (add3 chck pos) + b + rad.
(* with the above, vehicle.py 219-221 *)
Definition norm_con3 (a : pt3) : R := dot3 a a - 1.
(* vehicles/vehicle.py 227-232: 3D room constraints (without the radius) *)
Definition room_cons3 (lo hi rpos chck position : pt3) : list R :=
  let '(l0, l1, l2) := lo in let '(h0, h1, h2) := hi in let '(r0, r1, r2) := rpos in
  let '(p0, p1, p2) := add3 chck position in
  [ - p0 + (l0 + r0); p0 - (h0 + r0); - p1 + (l1 + r1); p1 - (h1 + r1); - p2 + (l2 + r2); p2 - (h2 + r2) ].
