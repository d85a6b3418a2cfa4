(* Model of omgtools/problems/globalplanner.py, class Grid (lines 284-522).

   Grid indices are integers (Z).  Physical lengths are exact rationals (Q)
   instead of floats.  Python lists [i, j] used as cells are pairs; they are
   never mutated after being stored.  n_cells and the occupied list are plain
   data.  Plotting (draw, 524-552) is not modelled. *)
From Coq Require Import ZArith QArith Qround List Bool Lia.
Import ListNotations.
Open Scope Z_scope.

(* used by grid, globalplanner.py 286-295 *)
Definition pos := (Z * Z)%type.

(* Python `==` on two-element integer lists; used by dist2_cells, globalplanner.py 406-414 *)
Definition pos_eqb (p q : pos) : bool :=
  (fst p =? fst q) && (snd p =? snd q).

(* globalplanner.py 286-295: Grid.__init__ attributes.  cell_width and
   cell_height are computed from the others (292-293). *)
Record grid := mkG {
  nx : Z; ny : Z;              (* n_cells *)
  gw : Q; gh : Q;              (* width, height *)
  px : Q; py : Q;              (* position *)
  offx : Q; offy : Q;          (* offset *)
  occ : list pos               (* occupied *)
}.

(* globalplanner.py 292-293 *)
Definition cw (g : grid) : Q := (gw g / inject_Z (nx g))%Q.
(* with the above, globalplanner.py 292-293 *)
Definition ch (g : grid) : Q := (gh g / inject_Z (ny g))%Q.

(* globalplanner.py 297-300: in_bounds *)
Definition in_bounds (g : grid) (p : pos) : bool :=
  (0 <=? fst p) && (fst p <? nx g) && ((0 <=? snd p) && (snd p <? ny g)).

(* used by free, globalplanner.py 311-317 *)
Definition occupied (g : grid) (p : pos) : bool := existsb (pos_eqb p) (occ g).

(* globalplanner.py 302-309: block, with a list of cells (the single-cell convenience form of
   304-305 is the list of length one) *)
Definition block (g : grid) (ps : list pos) : grid :=
  mkG (nx g) (ny g) (gw g) (gh g) (px g) (py g) (offx g) (offy g)
      (occ g ++ filter (in_bounds g) ps).

(* globalplanner.py 311-317: free *)
Definition free (g : grid) (p : pos) : bool :=
  negb (occupied g p) && in_bounds g p.

(* used by free_q, globalplanner.py 311-317 *)
Definition Qltb (a b : Q) : bool := negb (Qle_bool b a).

(* globalplanner.py 311-317 called with a second coordinate that is not an integer (349 passes
   point1[1] - cell_height): Python compares int and float by value *)
Definition free_q (g : grid) (x : Z) (y : Q) : bool :=
  negb (existsb (fun o => (fst o =? x) && Qeq_bool (inject_Z (snd o)) y) (occ g))
  && ((0 <=? x) && (x <? nx g)
      && (Qle_bool 0 y && Qltb y (inject_Z (ny g)))).

(* globalplanner.py 319-352: is_accessible *)
Definition is_accessible (g : grid) (p q : pos) : bool :=
  let (x, y) := p in
  let (x2, y2) := q in
  if negb (x =? x2) && negb (y =? y2) then
    if (x + 1 =? x2) && (y + 1 =? y2) then free g (x, y + 1) && free g (x + 1, y)
    else if (x - 1 =? x2) && (y + 1 =? y2) then free g (x, y + 1) && free g (x - 1, y)
    else if (x + 1 =? x2) && (y - 1 =? y2) then free g (x, y - 1) && free g (x + 1, y)
    else if (x - 1 =? x2) && (y - 1 =? y2) then
      free_q g x (inject_Z y - ch g) && free g (x - 1, y)        (* 349 *)
    else false
  else true.

(* globalplanner.py 416-426: get_neighbors *)
Definition get_neighbors (g : grid) (p : pos) : list pos :=
  let (x, y) := p in
  filter (is_accessible g p)
    (filter (free g)
      (filter (in_bounds g)
        [(x + 1, y); (x - 1, y); (x, y + 1); (x, y - 1);
         (x - 1, y + 1); (x + 1, y + 1); (x - 1, y - 1); (x + 1, y - 1)])).

(* Python 3 round() on an exact number: to the nearest integer, ties to even; used by snap_index, globalplanner.py 364-375 *)
Definition py_round (q : Q) : Z :=
  let f := Qfloor q in
  let r := (q - inject_Z f)%Q in
  if Qltb r (1 # 2) then f
  else if Qltb (1 # 2) r then f + 1
  else if Z.even f then f else f + 1.

(* globalplanner.py 406-414: distance_between_cells, squared.  All distances in
   move_to_gridpoint are non-negative and only compared, so comparing squares
   is the same as comparing values; this avoids the square root of 414. *)
Definition dist2_cells (g : grid) (c1 c2 : pos) : Q :=
  if pos_eqb c1 c2 then 0%Q
  else if fst c1 =? fst c2 then (ch g * ch g)%Q
  else if snd c1 =? snd c2 then (cw g * cw g)%Q
  else (cw g * cw g + ch g * ch g)%Q.

(* used by move_to_gridpoint, globalplanner.py 354-404 *)
Definition Qmax2 (a b : Q) : Q := if Qltb a b then b else a.

(* globalplanner.py 364-375: index of the nearest cell, clamped to the grid *)
Definition snap_index (v off cell : Q) : Z := Z.max 0 (py_round ((v - off) / cell)%Q).

(* used by move_to_gridpoint, globalplanner.py 354-404 *)
Definition snap (g : grid) (x y : Q) : pos :=
  let i := snap_index x (px g - (1 # 2) * gw g + (1 # 2) * cw g)%Q (cw g) in
  let j := snap_index y (py g - (1 # 2) * gh g + (1 # 2) * ch g)%Q (ch g) in
  if in_bounds g (i, j) then (i, j) else (Z.min i (nx g - 1), Z.min j (ny g - 1)).

(* globalplanner.py 379-386: candidates around an occupied cell, in the order of the code *)
Definition snap_candidates (p : pos) : list pos :=
  let (x, y) := p in
  [(x + 1, y); (x - 1, y); (x, y + 1); (x, y - 1);
   (x + 1, y + 1); (x + 1, y - 1); (x - 1, y + 1); (x - 1, y - 1)].

(* globalplanner.py 397-401: the selection loop; state is (d_min squared, moved_point).  Note
   that moved_point is overwritten while later distances are measured to it. *)
Definition snap_select (g : grid) (s : Q * pos) (p : pos) : Q * pos :=
  let d := dist2_cells g p (snd s) in
  if Qltb d (fst s) then (d, p) else s.

(* globalplanner.py 354-404: move_to_gridpoint *)
Definition move_to_gridpoint (g : grid) (x y : Q) : pos :=
  let m := snap g x y in
  if occupied g m then
    let cands := filter (free g) (filter (in_bounds g) (snap_candidates m)) in
    let d0 := (2 * Qmax2 (ch g) (cw g))%Q in
    snd (fold_left (snap_select g) cands ((d0 * d0)%Q, m))
  else m.

(* globalplanner.py 239-249: convert_node_to_waypoint for one cell: the cell centre *)
Definition centre_x (g : grid) (i : Z) : Q :=
  (px g - gw g * (1 # 2) + cw g * (1 # 2) + inject_Z i * cw g)%Q.
(* with the above, globalplanner.py 239-249 *)
Definition centre_y (g : grid) (j : Z) : Q :=
  (py g - gh g * (1 # 2) + ch g * (1 # 2) + inject_Z j * ch g)%Q.
(* with the above, globalplanner.py 239-249 *)
Definition waypoint (g : grid) (p : pos) : Q * Q :=
  (centre_x g (fst p), centre_y g (snd p)).

(* ---- get_occupied_cells, 428-522 ---- *)

(* numpy.arange(start, stop, step): ceil((stop-start)/step) values; used by all_cells, globalplanner.py 432-442 *)
Definition arange (start stop step : Q) : list Q :=
  map (fun k => (start + inject_Z (Z.of_nat k) * step)%Q)
      (seq 0 (Z.to_nat (Qceiling ((stop - start) / step)))).

(* used by all_cells, globalplanner.py 432-442 *)
Record cell := mkC { cpos : Q * Q; cidx : pos }.

(* used by all_cells, globalplanner.py 432-442 *)
Fixpoint enum {A} (n : Z) (l : list A) : list (Z * A) :=
  match l with [] => [] | a :: l' => (n, a) :: enum (n + 1) l' end.

(* globalplanner.py 432-442 *)
Definition all_cells (g : grid) : list cell :=
  let xs := arange (px g - gw g * (1 # 2) + (1 # 2) * cw g)
                   (px g + gw g * (1 # 2) + (1 # 2) * cw g) (cw g) in
  let ys := arange (py g - gh g * (1 # 2) + (1 # 2) * ch g)
                   (py g + gh g * (1 # 2) + (1 # 2) * ch g) (ch g) in
  flat_map (fun ix => map (fun jy => mkC (snd ix, snd jy) (fst ix, fst jy)) (enum 0 ys))
           (enum 0 xs).

(* basics/shape.py: what the planner distinguishes (449, 467).  A rectangle is
   its list of vertices relative to the obstacle position; any other shape
   leaves the Python variable `vertices` as it was; with globalplanner.py 432-442 *)
Inductive oshape :=
| ORect (vx vy : list Q)
| OCircle (r : Q)
| OOther.

(* used by stationary, globalplanner.py 446-447 *)
Record obst := mkO {
  oshp : oshape;
  opos : Q * Q;                          (* signals['position'][:, -1], 448 *)
  ovel : option (list (list Q))          (* simulation['trajectories']['velocity']['values'] *)
}.

(* used by rect_vertices, globalplanner.py 454-466 *)
Definition lmin (l : list Q) : Q :=
  fold_left (fun m a => if Qltb a m then a else m) (tl l) (hd 0%Q l).
(* with the above, globalplanner.py 432-442 *)
Definition lmax (l : list Q) : Q :=
  fold_left (fun m a => if Qltb m a then a else m) (tl l) (hd 0%Q l).

(* numpy.round(v, 4): nearest multiple of 1e-4, ties to even; used by round_vertices, globalplanner.py 476-477 *)
Definition round4 (q : Q) : Q := (inject_Z (py_round (q * 10000)) / 10000)%Q.

(* globalplanner.py 454-466 *)
Definition rect_vertices (g : grid) (vx vy : list Q) (p : Q * Q) : list (Q * Q) :=
  map (fun v =>
    (((if Qeq_bool (fst v) (lmin vx) then fst v + fst p - offx g
       else fst v + fst p + offx g)%Q),
     ((if Qeq_bool (snd v) (lmin vy) then snd v + snd p - offy g
       else snd v + snd p + offy g)%Q)))
    (combine vx vy).

(* globalplanner.py 467-475 *)
Definition circle_vertices (g : grid) (r : Q) (p : Q * Q) : list (Q * Q) :=
  [((fst p + r + offx g)%Q, (snd p + r + offy g)%Q);
   ((fst p + r + offx g)%Q, (snd p - r - offy g)%Q);
   ((fst p - r - offx g)%Q, (snd p + r + offy g)%Q);
   ((fst p - r - offx g)%Q, (snd p - r - offy g)%Q)].

(* globalplanner.py 476-477 *)
Definition round_vertices (vs : list (Q * Q)) : list (Q * Q) :=
  map (fun v => (round4 (fst v), round4 (snd v))) vs.

(* globalplanner.py 446-447: stationary obstacle test *)
Definition stationary (o : obst) : bool :=
  match ovel o with
  | None => true
  | Some vals => forallb (forallb (fun v => Qeq_bool v 0)) vals
  end.

(* strict containment in the bounding box of a list of points, globalplanner.py 490-491, 496-497, 506-507 *)
Definition in_box (vs : list (Q * Q)) (p : Q * Q) : bool :=
  Qltb (lmin (map fst vs)) (fst p) && Qltb (fst p) (lmax (map fst vs))
  && (Qltb (lmin (map snd vs)) (snd p) && Qltb (snd p) (lmax (map snd vs))).

(* globalplanner.py 483-488 *)
Definition cell_vertices (g : grid) (c : cell) : list (Q * Q) :=
  let x := fst (cpos c) in let y := snd (cpos c) in
  [((x - (1 # 2) * cw g)%Q, (y - (1 # 2) * ch g)%Q);
   ((x + (1 # 2) * cw g)%Q, (y - (1 # 2) * ch g)%Q);
   ((x - (1 # 2) * cw g)%Q, (y + (1 # 2) * ch g)%Q);
   ((x + (1 # 2) * cw g)%Q, (y + (1 # 2) * ch g)%Q)].

(* globalplanner.py 480-511: is the cell appended to occ_cells *)
Definition cell_hit (g : grid) (vs : list (Q * Q)) (c : cell) : bool :=
  if in_box vs (cpos c) then true
  else if existsb (in_box vs) (cell_vertices g c) then true
  else existsb (in_box (cell_vertices g c)) vs.

(* used by occ_loop, globalplanner.py 444-516 *)
Inductive occ_result := OccOk (l : list pos) | OccUnbound (* UnboundLocalError at 476 *).

(* globalplanner.py 444-516: loop over obstacles.  `prev` is the Python variable `vertices`
   that survives from one obstacle to the next.  occ_cells removed from cells
   (513-514) is the complement filter because the cells are pairwise
   different. *)
Fixpoint occ_loop (g : grid) (obs : list obst) (prev : option (list (Q * Q)))
         (cells : list cell) (acc : list pos) : occ_result :=
  match obs with
  | [] => OccOk acc
  | o :: obs' =>
      if stationary o then
        let raw := match oshp o with
                   | ORect vx vy => Some (rect_vertices g vx vy (opos o))
                   | OCircle r => Some (circle_vertices g r (opos o))
                   | OOther => prev
                   end in
        match raw with
        | None => OccUnbound
        | Some vs0 =>
            let vs := round_vertices vs0 in
            let hit := filter (cell_hit g vs) cells in
            let rest := filter (fun c => negb (cell_hit g vs c)) cells in
            occ_loop g obs' (Some vs) rest (acc ++ map cidx hit)
        end
      else occ_loop g obs' prev cells acc
  end.

(* globalplanner.py 428-522 *)
Definition get_occupied_cells (g : grid) (obs : list obst) : occ_result :=
  occ_loop g obs None (all_cells g) [].
