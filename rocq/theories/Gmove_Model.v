(* Model of the geometry of G-code segments over exact reals: arc sampling
   (gui/gcode_block.py), rooms around lines and arcs, the segment switching test
   and the motion guesses (problems/gcodeschedulerproblem.py). *)
Require Import Reals List Bool Arith.
From Verif Require Import Angle_Model Geom_Model.
Import ListNotations.
Open Scope bool_scope.
Open Scope R_scope.

Notation pt3 := (R * R * R)%type.
(* used by dist_xy, gcode_block.py 287-292 *)
Definition x3 (p : pt3) : R := fst (fst p).
(* used by dist_xy, gcode_block.py 287-292 *)
Definition y3 (p : pt3) : R := snd (fst p).
(* used by coords02, gcode_block.py 145-166 *)
Definition z3 (p : pt3) : R := snd p.

(* gcode_block.py 287-292, distance_between, for points of the plane and of space *)
Definition dist_xy (p q : pt3) : R := sqrt ((x3 q - x3 p) ^ 2 + (y3 q - y3 p) ^ 2).
(* with the above, gcode_block.py 287-292 *)
Definition dist_xyz (p q : pt3) : R := sqrt ((x3 q - x3 p) ^ 2 + (y3 q - y3 p) ^ 2 + (z3 q - z3 p) ^ 2).

(* ---------- arcs ---------- *)

(* gcode_block.py 151-157 (also gcodeschedulerproblem.py 341-345, shape.py 98-101):
   clockwise, the start angle is raised by a turn when it is below the end angle *)
Definition cw_start (a1 a2 : R) : R := if Rlt_dec a1 a2 then a1 + 2 * PI else a1.
(* with the above, gcode_block.py 151-157 *)
Definition cw_arc (a1 a2 : R) : R := cw_start a1 a2 - a2.
(* gcode_block.py 265-271: counter-clockwise, the end angle is raised *)
Definition ccw_end (a1 a2 : R) : R := if Rlt_dec a2 a1 then a2 + 2 * PI else a2.
(* with the above, gcode_block.py 265-271 *)
Definition ccw_arc (a1 a2 : R) : R := ccw_end a1 a2 - a1.

(* used by coords02, gcode_block.py 145-166 *)
Definition angle_at (c p : pt3) : R := atan2 (y3 p - y3 c) (x3 p - x3 c).
(* with the above, gcode_block.py 265-271 *)
Definition on_arc (c : pt3) (r z s : R) : pt3 := (x3 c + r * cos s, y3 c + r * sin s, z).

(* gcode_block.py 79: the radius of a G02 block *)
Definition radius02 (c start : pt3) : R := dist_xyz c start.
(* gcode_block.py 261: the radius a G03 block gets in get_coordinates *)
Definition radius03 (c start : pt3) : R := dist_xy c start.

(* gcode_block.py 145-166, G02.get_coordinates in the XY plane *)
Definition coords02 (c start stop : pt3) : list pt3 :=
  let a1 := cw_start (angle_at c start) (angle_at c stop) in
  let arc := a1 - angle_at c stop in
  map (on_arc c (radius02 c start) (z3 start)) (linspace a1 (a1 - arc) 20).
(* gcode_block.py 258-281, G03.get_coordinates in the XY plane *)
Definition coords03 (c start stop : pt3) : list pt3 :=
  let a1 := angle_at c start in
  let arc := ccw_end a1 (angle_at c stop) - a1 in
  map (on_arc c (radius03 c start) (z3 start)) (linspace a1 (a1 + arc) 20).

(* ---------- rooms around straight moves ---------- *)

(* a rectangular room: Rectangle(width, height, orientation), the pose and the end
   points of the segment; used by line_room, gcodeschedulerproblem.py 246-258 *)
Record lroom := LRoom { lw : R; lh : R; lo : R; lpos : pt3; lstart : pt3; lend : pt3 }.

(* used by line_room, gcodeschedulerproblem.py 246-258 *)
Definition orientation (s e : pt3) : R := atan2 (y3 e - y3 s) (x3 e - x3 s).
(* gcodeschedulerproblem.py 246-258 *)
Definition line_room (tol : R) (s e : pt3) : lroom :=
  LRoom (dist_xyz s e + 2 * tol) (2 * tol) (orientation s e)
    (x3 s + (x3 e - x3 s) * (1 / 2), y3 s + (y3 e - y3 s) * (1 / 2), z3 s + (z3 e - z3 s) * (1 / 2)) s e.
(* gcodeschedulerproblem.py 263-309 *)
Definition line_rooms3 (tol tols split : R) (s e : pt3) : list lroom :=
  let o := orientation s e in
  let w := dist_xyz s e in
  let l1 := split * w in
  let l2 := (1 - 2 * split) * w in
  let zm := z3 s + (z3 e - z3 s) * (1 / 2) in
  let ze := z3 s + (z3 e - z3 s) in
  let at_ (d : R) (z : R) : pt3 := (x3 s + d * cos o, y3 s + d * sin o, z) in
  let end1 := at_ l1 ze in
  let end2 := at_ (l1 + l2) ze in
  [ LRoom (l1 + 2 * tol) (2 * tol) o (at_ (1 / 2 * l1) zm) s end1;
    LRoom (l2 + 2 * tols) (2 * tols) o (at_ (l1 + 1 / 2 * l2) zm) end1 end2;
    LRoom (l1 + 2 * tol) (2 * tol) o (x3 e - 1 / 2 * l1 * cos o, y3 e - 1 / 2 * l1 * sin o, zm) end2 e ].

(* ---------- rooms around arcs ---------- *)

(* shape.py 79-102: a Ring with its start and end angle; direction CW or CCW *)
Inductive turn := CW | CCW.
(* with the above, shape.py 79-102 *)
Record ring := Ring { rin : R; rout : R; a_start : R; a_end : R; rdir : turn }.
(* shape.py 92-102, Ring.get_surfaces for start <> end (points around the origin) *)
Definition make_ring (ri ro : R) (s e : pt) (d : turn) : ring :=
  let a1 := atan2 (snd s) (fst s) in
  let a2 := atan2 (snd e) (fst e) in
  match d with
  | CW => Ring ri ro (cw_start a1 a2) a2 CW
  | CCW => Ring ri ro a1 (ccw_end a1 a2) CCW
  end.

(* gcodeschedulerproblem.py 320: the angle added at both ends *)
Definition tol_angle (tol r : R) : R := atan2 tol (((r - tol) + (r + tol)) * (1 / 2)).
(* gcodeschedulerproblem.py 312-334: start and end of the shape, rotated outwards *)
Definition widened_start (d : turn) (tol r : R) (s : pt) : pt :=
  match d with CW => rotate (tol_angle tol r) s | CCW => rotate (- tol_angle tol r) s end.
(* with the above, gcodeschedulerproblem.py 312-334 *)
Definition widened_end (d : turn) (tol r : R) (e : pt) : pt :=
  match d with CW => rotate (- tol_angle tol r) e | CCW => rotate (tol_angle tol r) e end.
(* gcodeschedulerproblem.py 338-351: the angle of the widened arc *)
Definition arc_of (d : turn) (s e : pt) : R :=
  let a1 := atan2 (snd s) (fst s) in
  let a2 := atan2 (snd e) (fst e) in
  match d with CW => cw_arc a1 a2 | CCW => ccw_arc a1 a2 end.
(* gcodeschedulerproblem.py 506-556, split_ring_segment on the widened end points *)
Definition ring_rooms (split_circle : bool) (d : turn) (tol r : R) (s e : pt) : list ring :=
  let s' := widened_start d tol r s in
  let e' := widened_end d tol r e in
  let arc := arc_of d s' e' in
  let th := tol_angle tol r in
  if split_circle && Rltb (3 * PI / 4) arc then
    let half := arc * (1 / 2) in
    match d with
    | CW => [make_ring (r - tol) (r + tol) s' (rotate (- half - th) s') d;
             make_ring (r - tol) (r + tol) (rotate (- half + th) s') e' d]
    | CCW => [make_ring (r - tol) (r + tol) s' (rotate (half + th) s') d;
              make_ring (r - tol) (r + tol) (rotate (half - th) s') e' d]
    end
  else [make_ring (r - tol) (r + tol) s' e' d].

(* gcodeschedulerproblem.py 354-498 (variable tolerance): the three parts of a ring
   segment from s to e (around the origin); each part with the start and the end
   recorded for its room; bs, be are start and end of the whole block, which the code
   records for the outer parts even when the segment is one half of a split arc *)
Definition rot_dir (d : turn) (a : R) (p : pt) : pt :=
  match d with CW => rotate (- a) p | CCW => rotate a p end.
(* with the above, gcodeschedulerproblem.py 354-498 *)
Definition arc_parts (d : turn) (tol tols r sp : R) (bs be s e : pt) : list (ring * pt * pt) :=
  let arc := Rabs (arc_of d s e) in
  let arc1 := sp * arc in
  let arc2 := (1 - 2 * sp) * arc in
  let big := tol_angle tol r in
  let small := atan2 tols (((r - tol) + (r + tol)) * (1 / 2)) in
  let m1 := rot_dir d arc1 s in
  let m2 := rot_dir d arc2 m1 in
  [ (make_ring (r - tol) (r + tol) (rot_dir d (- big) s) (rot_dir d (arc1 + big) s) d, bs, m1);
    (make_ring (r - tol + (tol - tols)) (r + tol - (tol - tols)) (rot_dir d (- small) m1) (rot_dir d (arc2 + small) m1) d, m1, m2);
    (make_ring (r - tol) (r + tol) (rot_dir d (- big) m2) (rot_dir d (arc1 + big) m2) d, m2, be) ].

(* ---------- switching to the next segment ---------- *)

(* Python's x % m for m > 0; used by in_extended_rectangle, gcodeschedulerproblem.py 678-726 *)
Definition rmod (x m : R) : R := x - m * IZR (Int_part (x / m)).
(* with the above, gcodeschedulerproblem.py 354-498 *)
Definition add2 (p q : pt) : pt := (fst p + fst q, snd p + snd q).
(* gcodeschedulerproblem.py 715-721: signed distance beyond the line of a side *)
Definition side_value (p : pt) (side : pt * pt) : R :=
  let '(p1, p2) := side in
  let vx := fst p2 - fst p1 in
  let vy := snd p2 - snd p1 in
  let n := sqrt (vx ^ 2 + vy ^ 2) in
  let a := (- vy * (1 / n), vx * (1 / n)) in
  (fst a * fst p + snd a * snd p) - (fst a * fst p1 + snd a * snd p1).
(* gcodeschedulerproblem.py 699-709: the sides as long as the width *)
Definition couples (w : R) (vs : list pt) : list (pt * pt) :=
  let long (s : pt * pt) := Rltb (Rabs (dist2 (fst s) (snd s) - w)) (1 / 1000) in
  let inner := match vs with v0 :: vs' => combine vs vs' | [] => [] end in
  let c := filter long inner in
  if (length c =? 2)%nat then c else c ++ [(last vs (0, 0), hd (0, 0) vs)].
(* gcodeschedulerproblem.py 678-726, point_in_extended_shape for rectangles *)
Definition in_extended_rectangle (w h th : R) (position : pt) (point : pt) (distance : R) : bool :=
  let vs := map (add2 position) (rectangle_vertices w h th) in
  if Req_EM_T (rmod th PI) 0 then
    Rltb (snd point) (amax (ys vs)) && Rltb (amin (ys vs)) (snd point)
  else if Req_EM_T (rmod th (PI / 2)) 0 then
    Rltb (fst point) (amax (xs vs)) && Rltb (amin (xs vs)) (fst point)
  else forallb (fun s => Rltb (side_value point s) (- distance)) (couples w vs).
(* gcodeschedulerproblem.py 727-737, point_in_extended_shape for rings *)
Definition in_extended_ring (ri ro : R) (center point : pt) (distance : R) : bool :=
  let r := sqrt ((fst point - fst center) ^ 2 + (snd point - snd center) ^ 2) in
  Rleb (ri + distance) r && Rleb r (ro - distance).

(* ---------- motion time ---------- *)

(* gcodeschedulerproblem.py 1214-1235: T1, T2, T4 of the eight phases
   T1 T2 T1 T4 T4 T1 T2 T1; x ** (1/3.) is Rpower for x > 0 *)
Definition cbrt (x : R) : R := Rpower x (1 / 3).
(* with the above, gcodeschedulerproblem.py 1214-1235 *)
Definition phases (j a v d : R) : R * R * R :=
  let T1_acc := a / j in
  let T1_vel := sqrt (v / j) in
  let T1_pos := cbrt (32 * d / j) / 4 in
  let T1 := Rmin (Rmin T1_acc T1_vel) T1_pos in
  if Req_EM_T T1 T1_pos then (T1, 0, 0)
  else if Req_EM_T T1 T1_vel then (T1, 0, (d / 2 - j * T1 ^ 3) / v)
  else
    let T2_pos := (2 * sqrt (a * (a ^ 3 + 4 * d * j ^ 2) / 4) - 3 * a ^ 2) / (2 * a * j) in
    let T2_vel := (- a ^ 2 / j + v) / a in
    let T2 := Rmin T2_vel T2_pos in
    if Req_EM_T T2 T2_vel
    then (T1, T2, - (a ^ 2 * v - j * d * a + j * v ^ 2) / (2 * a * j * v))
    else (T1, T2, 0).
(* gcodeschedulerproblem.py 1235-1236 *)
Definition motion_time (j a v d : R) : R :=
  let '(T1, T2, T4) := phases j a v d in T1 + T2 + T1 + T4 + T4 + T1 + T2 + T1.
(* gcodeschedulerproblem.py 1202-1205: the distance used for a rectangle *)
Definition line_distance (s e : pt3) : R :=
  (x3 e - x3 s) ^ 2 + (y3 e - y3 s) ^ 2 + (z3 e - z3 s) ^ 2.

(* ---------- bang-bang jerk ---------- *)

(* gcodeschedulerproblem.py 893-910: the jerk coefficients *)
Definition jerk_coeffs (n : nat) (j : R) : list R :=
  let m := (n / 4)%nat in
  match (n mod 4)%nat with
  | 0%nat => repeat j m ++ repeat (- j) (2 * m) ++ repeat j m
  | 1%nat => repeat j m ++ repeat (- j) m ++ [0] ++ repeat (- j) m ++ repeat j m
  | 2%nat => repeat j m ++ [0] ++ repeat (- j) (2 * m) ++ [0] ++ repeat j m
  | _ => repeat j m ++ [0] ++ repeat (- j) m ++ [0] ++ repeat (- j) m ++ [0] ++ repeat j m
  end.
(* gcodeschedulerproblem.py 921-931: scaling to the segment and clamping of three
   coefficients at both ends; pos are the coefficients of the integrated jerk *)
Definition set_nth (k : nat) (x : R) (l : list R) : list R := firstn k l ++ x :: skipn (S k) l.
(* with the above, gcodeschedulerproblem.py 921-931 *)
Definition scaled_guess (pos : list R) (x0 x1 : R) : list R :=
  let g := map (fun c => c / last pos 0 * (x1 - x0) + x0) pos in
  let n := length g in
  set_nth (n - 1) x1 (set_nth (n - 2) x1 (set_nth (n - 3) x1
    (set_nth 2 x0 (set_nth 1 x0 (set_nth 0 x0 g))))).
