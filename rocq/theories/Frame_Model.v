(* Model of omgtools/environment/frame.py: the frames that the scheduler cuts
   out of a large room.

   Lengths, times and speeds are exact rationals (Q) instead of floats.  Python
   lists [x, y] are pairs.  Exceptions are values of the type [res]; [OutOfFuel]
   is not a Python exception but a `while True` loop that did not end within the
   given number of turns.  Printing and the measuring of computation times are
   not modelled.  An orientation is given by its cosine and sine; orientation 0
   is the pair (1, 0), so full turns are identified with 0.  A square root of
   a^2 + b^2 in which a or b is zero is written |a| + |b|, and distances are
   compared by their squares. *)
From Coq Require Import QArith Qabs Qminmax Qround ZArith List Bool.
Import ListNotations.
Open Scope bool_scope.
Open Scope Q_scope.

(* used by rotate, shape.py 38-44 *)
Definition pt := (Q * Q)%type.
(* used by overlap, frame.py 110 *)
Definition leb : Q -> Q -> bool := Qle_bool.
(* used by point_in_frame, frame.py 318-330 *)
Definition ltb (x y : Q) : bool := negb (Qle_bool y x).
(* used by supported, frame.py 99-100 *)
Definition eqb : Q -> Q -> bool := Qeq_bool.
(* Python `==` on two-element lists; used by is_stationary, frame.py 63-64 *)
Definition pt_eqb (p q : pt) : bool := eqb (fst p) (fst q) && eqb (snd p) (snd q).

(* the exceptions raised by frame.py 49-918, and the end of the fuel of its while loops *)
Inductive exn :=
  IndexError | TypeError | ValueError | RuntimeError | AttributeError | KeyError |
  UnboundLocalError | OutOfFuel.
(* used by get_stationary_obstacles, frame.py 49-116 *)
Inductive res (A : Type) := Ok (a : A) | Err (e : exn).
Arguments Ok {A}. Arguments Err {A}.
(* used by get_stationary_obstacles, frame.py 49-116 *)
Definition bind {A B} (x : res A) (f : A -> res B) : res B :=
  match x with Ok a => f a | Err e => Err e end.

(* border['limits'] = [xmin, ymin, xmax, ymax]; used by obs_limits, frame.py 99-108 *)
Record lim := Lim { xlo : Q; ylo : Q; xhi : Q; yhi : Q }.

(* the dictionary returned by make_border; position is [x, y, angle]; used by make_border, frame.py 168-177 *)
Record border := Border {
  b_width : Q; b_height : Q; b_pos : pt; b_angle : Q; b_lim : lim }.

(* frame.py 168-177, Frame.make_border *)
Definition make_border (xmin ymin xmax ymax : Q) : border :=
  Border (xmax - xmin) (ymax - ymin)
         ((xmax - xmin) * (1 # 2) + xmin, (ymax - ymin) * (1 # 2) + ymin) 0
         (Lim xmin ymin xmax ymax).
(* with the above, frame.py 168-177 *)
Definition border_of (l : lim) : border := make_border (xlo l) (ylo l) (xhi l) (yhi l).

(* ---- shapes and obstacles ------------------------------------------------ *)

(* basics/shape.py: Rectangle (with its subclasses), Circle (with Cylinder), and
   any other polyhedron given by its vertices before the rotation of line 130.
   cs, sn: cosine and sine of the attribute `orientation`; used by vertices, shape.py 132-141 *)
Inductive shape :=
| SRect (w h cs sn : Q)
| SCirc (r : Q)
| SPoly (vs : list pt) (cs sn : Q).

(* shape.py 38-44, Shape2D.rotate *)
Definition rotate (cs sn : Q) (p : pt) : pt :=
  (cs * fst p - sn * snd p, sn * fst p + cs * snd p).

(* shape.py 222-236, Rectangle.get_vertices: the solutions of the 2 x 2 systems *)
Definition rect_base (w h : Q) : list pt :=
  [((1 # 2) * w, (1 # 2) * h); ((1 # 2) * w, - ((1 # 2) * h));
   (- ((1 # 2) * w), - ((1 # 2) * h)); (- ((1 # 2) * w), (1 # 2) * h)].

(* shape.py 132-141, Polyhedron.__init__: the attribute `vertices` is already
   rotated; a circle has no vertices *)
Definition vertices (s : shape) : list pt :=
  match s with
  | SRect w h c sn => map (rotate c sn) (rect_base w h)
  | SCirc _ => []
  | SPoly vs c sn => map (rotate c sn) vs
  end.

(* used by canvas_limits, shape.py 65-67 *)
Definition min_list (l : list Q) : Q := match l with [] => 0 | x :: t => fold_right Qmin x t end.
(* with the above, shape.py 132-141 *)
Definition max_list (l : list Q) : Q := match l with [] => 0 | x :: t => fold_right Qmax x t end.

(* shape.py 65-67 (Circle) and 152-156 (Polyhedron), get_canvas_limits:
   [[xmin, xmax], [ymin, ymax]] *)
Definition canvas_limits (s : shape) : (Q * Q) * (Q * Q) :=
  match s with
  | SCirc r => ((- r, r), (- r, r))
  | _ => ((min_list (map fst (vertices s)), max_list (map fst (vertices s))),
          (min_list (map snd (vertices s)), max_list (map snd (vertices s))))
  end.

(* What frame.py reads of an obstacle: o_id identifies the object (the class
   has no __eq__); o_traj is simulation['trajectories']['velocity']['values'],
   None when one of the two keys is missing; o_pos and o_vel are the last
   columns of signals['position'] and signals['velocity']; o_avoid is
   options['avoid']; used by is_stationary, frame.py 63-64 *)
Record obstacle := Obs {
  o_id : nat; o_shape : shape; o_traj : option (list pt);
  o_pos : pt; o_vel : pt; o_avoid : bool }.

(* frame.py 63-64: no velocity trajectory, or only zero velocities in it *)
Definition is_stationary (o : obstacle) : bool :=
  match o_traj o with
  | None => true
  | Some vels => forallb (fun v => pt_eqb v (0, 0)) vels
  end.

(* frame.py 99-100: Rectangle with orientation 0, or Circle *)
Definition supported (s : shape) : bool :=
  match s with
  | SRect _ _ c sn => eqb c 1 && eqb sn 0
  | SCirc _ => true
  | SPoly _ _ _ => false
  end.

(* frame.py 99-108: canvas limits moved to the position of the obstacle *)
Definition obs_limits (o : obstacle) : lim :=
  let '((x0, x1), (y0, y1)) := canvas_limits (o_shape o) in
  Lim (x0 + fst (o_pos o)) (y0 + snd (o_pos o)) (x1 + fst (o_pos o)) (y1 + snd (o_pos o)).

(* frame.py 110 *)
Definition overlap (l ob : lim) : bool :=
  leb (xlo l) (xhi ob) && leb (xlo ob) (xhi l) && (leb (ylo l) (yhi ob) && leb (ylo ob) (yhi l)).

(* frame.py 49-116, Frame.get_stationary_obstacles *)
Fixpoint get_stationary_obstacles (l : lim) (obs : list obstacle) : res (list obstacle) :=
  match obs with
  | [] => Ok []
  | o :: rest =>
      if is_stationary o then
        if supported (o_shape o) then
          bind (get_stationary_obstacles l rest) (fun r =>
            Ok (if overlap l (obs_limits o) then o :: r else r))
        else Err RuntimeError
      else get_stationary_obstacles l rest
  end.

(* Python's round: to the nearest integer, halves to the even one; used by n_samples, frame.py 334 *)
Definition py_round (q : Q) : Z :=
  let f := Qfloor q in
  if ltb (q - inject_Z f) (1 # 2) then f
  else if ltb (1 # 2) (q - inject_Z f) then (f + 1)%Z
  else if Z.even f then f else (f + 1)%Z.

(* frame.py 318-330, Frame.point_in_frame for a stationary point (time is None) *)
Definition point_in_frame (l : lim) (p : pt) (distance : Q) : bool :=
  ltb (xlo l + distance) (fst p) && ltb (fst p) (xhi l - distance) &&
  (ltb (ylo l + distance) (snd p) && ltb (snd p) (yhi l - distance)).

(* frame.py 334 (the division by a zero sample time is not modelled) *)
Definition n_samples (time sample_time : Q) : Z := (py_round (time / sample_time) + 1)%Z.

(* frame.py 338: the point after l sample times *)
Definition moved (p v : pt) (sample_time : Q) (l : Z) : pt :=
  (fst p + inject_Z l * sample_time * fst v, snd p + inject_Z l * sample_time * snd v).
(* with the above, frame.py 338 *)
Definition in_closed (l : lim) (p : pt) : bool :=
  leb (xlo l) (fst p) && leb (fst p) (xhi l) && (leb (ylo l) (snd p) && leb (snd p) (yhi l)).

(* frame.py 332-340, Frame.point_in_frame for a moving point *)
Definition point_in_frame_moving (l : lim) (p : pt) (sample_time time : Q) (v : pt) : bool :=
  existsb (fun k => in_closed l (moved p v sample_time (Z.of_nat k)))
          (seq 0 (Z.to_nat (n_samples time sample_time + 1))).

(* frame.py 129-140: the points of the obstacle that are followed *)
Definition obs_checkpoints (s : shape) : list pt :=
  match s with
  | SCirc r => [(0, 0); (- r, - r); (- r, r); (r, r); (r, - r)]
  | _ => vertices s
  end.
(* frame.py 144-151: rotated (again) by the orientation, moved to the position *)
Definition checked_vertex (o : obstacle) (chck : pt) : pt :=
  let v := match o_shape o with
           | SRect _ _ c sn => rotate c sn chck
           | SPoly _ c sn => rotate c sn chck
           | SCirc _ => chck
           end in
  (fst v + fst (o_pos o), snd v + snd (o_pos o)).

(* frame.py 127 *)
Definition is_moving (o : obstacle) : bool := negb (pt_eqb (o_vel o) (0, 0)).

(* used by get_moving_obstacles, frame.py 118-166 *)
Definition enters (l : lim) (ts motion_time : Q) (o : obstacle) : bool :=
  is_moving o &&
  existsb (fun c => point_in_frame_moving l (checked_vertex o c) ts motion_time (o_vel o))
          (obs_checkpoints (o_shape o)).

(* frame.py 156: set_options({'avoid': True}) *)
Definition set_avoid (o : obstacle) : obstacle :=
  Obs (o_id o) (o_shape o) (o_traj o) (o_pos o) (o_vel o) true.

(* frame.py 118-166, Frame.get_moving_obstacles: the list it returns, and the
   obstacles of the environment after the call *)
Definition get_moving_obstacles (l : lim) (ts motion_time : Q) (obs : list obstacle)
  : list obstacle * list obstacle :=
  (map set_avoid (filter (enters l ts motion_time) obs),
   map (fun o => if enters l ts motion_time o then set_avoid o else o) obs).

(* ---- distances ----------------------------------------------------------- *)

(* frame.py 197-205: distance of a point to the line through two vertices *)
Definition dist_line (p v1 v2 : pt) : Q :=
  Qabs ((snd v2 - snd v1) * fst p - (fst v2 - fst v1) * snd p + fst v2 * snd v1 - snd v2 * fst v1)
  / (Qabs (snd v2 - snd v1) + Qabs (fst v2 - fst v1)).

(* frame.py 179-210, Frame.distance_to_border *)
Definition distance_to_border (l : lim) (p : pt) : Q * Q :=
  let v1 := (xlo l, ylo l) in let v2 := (xlo l, yhi l) in
  let v3 := (xhi l, yhi l) in let v4 := (xhi l, ylo l) in
  let dist12 := - dist_line p v1 v2 in
  let dist23 := dist_line p v2 v3 in
  let dist34 := dist_line p v3 v4 in
  let dist41 := - dist_line p v4 v1 in
  (if ltb (Qabs dist12) (Qabs dist34) then dist12 else dist34,
   if ltb (Qabs dist23) (Qabs dist41) then dist23 else dist41).

(* geometry.py 169-191, point_in_rectangle with the default distance 0: both
   directions together, and per direction (xy_check) *)
Definition point_in_rectangle (p : pt) (l : lim) : bool :=
  leb (xlo l) (fst p) && leb (fst p) (xhi l) && (leb (ylo l) (snd p) && leb (snd p) (yhi l)).
(* with the above, geometry.py 169-191 *)
Definition inside_xy (p : pt) (l : lim) : bool * bool :=
  (leb (xlo l) (fst p) && leb (fst p) (xhi l), leb (ylo l) (snd p) && leb (snd p) (yhi l)).

(* frame.py 223-251, Frame.make_last_waypoint_reachable, method 'move_frame';
   p is self.waypoints[-1] *)
Definition move_distance (inside : bool) (d vm : Q) : Q :=
  if inside then - Qabs d + vm else Qabs d + vm.
(* with the above, frame.py 223-251 *)
Definition reach_move_frame (veh margin : Q) (l : lim) (p : pt) : lim :=
  let inside := point_in_rectangle p l in
  let '(dx, dy) := distance_to_border l p in
  let l1 :=
    if leb (Qabs dx) veh then
      let m := move_distance inside dx (veh * margin) in
      if leb dx 0 then Lim (xlo l - m) (ylo l) (xhi l) (yhi l)
      else Lim (xlo l) (ylo l) (xhi l + m) (yhi l)
    else l in
  if leb (Qabs dy) veh then
    let m := move_distance inside dy (veh * margin) in
    if leb dy 0 then Lim (xlo l1) (ylo l1 - m) (xhi l1) (yhi l1)
    else Lim (xlo l1) (ylo l1) (xhi l1) (yhi l1 + m)
  else l1.

(* frame.py 261-264 *)
Definition too_close (l : lim) (bound : Q) (p : pt) : bool :=
  let d := distance_to_border l p in
  negb (point_in_rectangle p l) || (leb (Qabs (fst d)) bound || leb (Qabs (snd d)) bound).

(* frame.py 257-264: the last waypoint before the last one that is far enough
   from the border.  ws: the waypoints before the last one, last first; count:
   the Python counter.  Running out of waypoints is the IndexError of line 261. *)
Fixpoint find_reachable (l : lim) (veh : Q) (ws : list pt) (count : nat) : res (nat * pt) :=
  match ws with
  | [] => Err IndexError
  | w :: rest => if too_close l veh w then find_reachable l veh rest (S count) else Ok (count, w)
  end.

(* frame.py 277-309: the new waypoint; p1 is waypoints[-1-count], p2 is
   waypoints[-1].  None: the last waypoint is kept.  The divisions of 290 and 307
   are by zero only where the code raises ZeroDivisionError. *)
Definition fix_x (veh margin : Q) (l : lim) (p1 p2 : pt) (dx : Q) : pt :=
  let vm := veh * margin in
  let nx := if leb dx 0 then xlo l + vm else xhi l - vm in
  (nx, if eqb (snd p1) (snd p2) then snd p1
       else (nx - fst p1) * ((snd p2 - snd p1) / (fst p2 - fst p1)) + snd p1).
(* with the above, frame.py 277-309 *)
Definition fix_y (veh margin : Q) (l : lim) (p1 p2 : pt) (dy : Q) : pt :=
  let vm := veh * margin in
  let ny := if leb dy 0 then ylo l + vm else yhi l - vm in
  (if eqb (fst p1) (fst p2) then fst p1
   else (ny - snd p1) * ((fst p2 - fst p1) / (snd p2 - snd p1)) + fst p1, ny).
(* with the above, frame.py 277-309 *)
Definition new_waypoint (veh margin : Q) (l : lim) (p1 p2 : pt) : pt :=
  let far_x := negb (fst (inside_xy p2 l)) || ltb (Qabs (fst (distance_to_border l p2))) veh in
  let w := if far_x then fix_x veh margin l p1 p2 (fst (distance_to_border l p2)) else p2 in
  let far_y := negb (snd (inside_xy w l)) || ltb (Qabs (snd (distance_to_border l w))) veh in
  if far_y then fix_y veh margin l p1 p2 (snd (distance_to_border l w)) else w.

(* frame.py 252-314, method 'move_point': the waypoints before the last one, and
   the last one *)
Definition reach_move_point (veh margin : Q) (l : lim) (before : list pt) (p2 : pt)
  : res (list pt) :=
  if too_close l (veh * margin) p2 then
    bind (find_reachable l veh (rev before) 1) (fun '(count, p1) =>
      Ok (firstn (length before + 1 - count) (before ++ [p2])
          ++ [new_waypoint veh margin l p1 p2]))
  else Ok (before ++ [p2]).

(* ---- the settings of a frame --------------------------------------------- *)

(* room: width, height and position of environment.room[0], a Rectangle with
   orientation 0 (find_closest_waypoint reads its width and height); used by room_limits, environment.py 351-356 *)
Record cfg := Cfg {
  veh_size : Q; margin : Q;
  room_w : Q; room_h : Q; room_pos : pt;
  frame_size : Q; move_limit : Q;        (* ShiftFrame *)
  scale_up_fine : bool;                  (* CorridorFrame *)
  env_obs : list obstacle }.

(* environment.py 351-356, Environment.get_canvas_limits()[0] *)
Definition room_limits (c : cfg) : lim :=
  let '((x0, x1), (y0, y1)) := canvas_limits (SRect (room_w c) (room_h c) 1 0) in
  Lim (x0 + fst (room_pos c)) (y0 + snd (room_pos c)) (x1 + fst (room_pos c)) (y1 + snd (room_pos c)).

(* used by closest_from, frame.py 357-364 *)
Definition sq_dist (p q : pt) : Q :=
  (fst q - fst p) * (fst q - fst p) + (snd q - snd p) * (snd q - snd p).

(* frame.py 357-364: best so far is index bi with squared distance bd *)
Fixpoint closest_from (pos : pt) (ws : list pt) (i : nat) (bd : Q) (bi : nat) : nat :=
  match ws with
  | [] => bi
  | w :: rest =>
      if ltb (sq_dist w pos) bd then closest_from pos rest (S i) (sq_dist w pos) i
      else closest_from pos rest (S i) bd bi
  end.
(* frame.py 346-365, Frame.find_closest_waypoint: the index it returns *)
Definition find_closest_waypoint (c : cfg) (pos : pt) (ws : list pt) : res nat :=
  match ws with
  | [] => Err IndexError
  | _ => let d := Qmax (room_w c) (room_h c) in Ok (closest_from pos ws 0 (d * d) 0)
  end.

(* ---- ShiftFrame ---------------------------------------------------------- *)

(* frame.py 471-496: how far the two sides lie from the start position *)
Definition sides (c : cfg) (delta : Q) : Q * Q :=
  let half := frame_size c * (1 # 2) in
  if ltb half (Qabs delta) then
    let move := Qmin (move_limit c) (Qabs delta - half + veh_size c * margin c) in
    if ltb 0 delta then (half - move, half + move) else (half + move, half - move)
  else (half, half).

(* frame.py 466-517, ShiftFrame.move_frame *)
Definition clip_low (x lo : Q) : Q := if ltb x lo then lo else x.
(* with the above, frame.py 466-517 *)
Definition clip_high (x hi : Q) : Q := if ltb hi x then hi else x.
(* with the above, frame.py 466-517 *)
Definition move_frame (c : cfg) (start : pt) (dx dy : Q) : lim :=
  let '(x0, x1) := sides c dx in
  let '(y0, y1) := sides c dy in
  let r := room_limits c in
  Lim (clip_low (fst start - x0) (xlo r)) (clip_low (snd start - y0) (ylo r))
      (clip_high (fst start + x1) (xhi r)) (clip_high (snd start + y1) (yhi r)).

(* A frame.  A waypoint None is a Python None in the list; f_endpoint None is
   the empty list that Frame.__init__ (frame.py 40) leaves in self.endpoint. *)
Record frame := Frame {
  f_border : border; f_waypoints : list (option pt); f_endpoint : option pt;
  f_stationary : list obstacle; f_start : pt }.

(* frame.py 376-380: the frame around the start position *)
Definition start_box (c : cfg) (start : pt) : lim :=
  let half := frame_size c * (1 # 2) in
  Lim (fst start - half) (snd start - half) (fst start + half) (snd start + half).

(* frame.py 384-412: waypoint outside (first part), endpoint, points in the
   frame, and the last value of delta_x, delta_y, None when never assigned *)
Fixpoint shift_scan (c : cfg) (start goal : pt) (ws : list pt)
    (endpoint : option pt) (inside : list pt) (delta : option pt)
  : option pt * option pt * list pt * option pt :=
  match ws with
  | [] => (None, endpoint, inside, delta)
  | p :: rest =>
      if point_in_frame (start_box c start) p 0 then
        shift_scan c start goal rest endpoint (inside ++ [p]) delta
      else
        let dx := fst p - fst start in let dy := snd p - snd start in
        let reach := move_limit c + frame_size c * (1 # 2) in
        if ltb reach (Qabs dx) || ltb reach (Qabs dy) then
          (Some p, endpoint, inside, Some (dx, dy))
        else if pt_eqb p goal then shift_scan c start goal rest (Some p) inside (Some (dx, dy))
        else shift_scan c start goal rest endpoint (inside ++ [p]) (Some (dx, dy))
  end.

(* frame.py 366-464, ShiftFrame.__init__.  Line 436 tests self.endpoint, which is
   the empty list and never None, so the last branch is never taken. *)
Definition shift_frame (c : cfg) (start : pt) (path : list pt) : res frame :=
  bind (find_closest_waypoint c start path) (fun idx =>
    let '(waypoint, endpoint, inside, delta) :=
      shift_scan c start (last path (0, 0)) (skipn idx path) None [] None in
    match waypoint, delta with
    | _, None => Err UnboundLocalError
    | Some w, Some (dx, dy) =>
        let l := move_frame c start dx dy in
        bind (reach_move_point (veh_size c) (margin c) l inside w) (fun ws =>
        bind (get_stationary_obstacles l (env_obs c)) (fun st =>
          Ok (Frame (border_of l) (map Some ws ++ [endpoint]) (Some (last ws (0, 0))) st start)))
    | None, Some (dx, dy) =>
        let l := move_frame c start dx dy in
        match endpoint with
        | None => Err TypeError
        | Some e =>
            let l' := reach_move_frame (veh_size c) (margin c) l e in
            bind (get_stationary_obstacles l' (env_obs c)) (fun st =>
              Ok (Frame (border_of l') (map Some (inside ++ [e]) ++ [Some e]) None st start))
        end
    end).

(* ---- CorridorFrame ------------------------------------------------------- *)

(* frame.py 559-562 *)
Definition base_box (c : cfg) (start : pt) : lim :=
  let vm := veh_size c * margin c in
  Lim (fst start - vm) (snd start - vm) (fst start + vm) (snd start + vm).

(* frame.py 636-653, CorridorFrame.update_frame_with_waypoint *)
Definition update_with_waypoint (c : cfg) (l : lim) (prev p : pt) : lim :=
  let vm := veh_size c * margin c in
  let '(x0, x1) := if ltb (fst prev) (fst p) then (xlo l, fst p + vm)
                   else if ltb (fst p) (fst prev) then (fst p - vm, xhi l)
                   else (xlo l, xhi l) in
  let '(y0, y1) := if ltb (snd prev) (snd p) then (ylo l, snd p + vm)
                   else if ltb (snd p) (snd prev) then (snd p - vm, yhi l)
                   else (ylo l, yhi l) in
  Lim x0 y0 x1 y1.

(* used by corridor_scan, frame.py 590-620 *)
Definition is_nil {A} (l : list A) : bool := match l with [] => true | _ => false end.

(* frame.py 590-620: the loop over the waypoints *)
Fixpoint corridor_scan (c : cfg) (start : pt) (ws : list pt) (l : lim) (inside : list pt)
  : res (lim * list pt) :=
  match ws with
  | [] => Ok (l, inside)
  | p :: rest =>
      if point_in_frame l p 0 then corridor_scan c start rest l (inside ++ [p])
      else
        let prev := last inside start in
        let l' := update_with_waypoint c l prev p in
        bind (get_stationary_obstacles l' (env_obs c)) (fun st =>
          if is_nil st then corridor_scan c start rest l' (inside ++ [p])
          else Ok (l, inside))
  end.

(* frame.py 548-631, CorridorFrame.create_corridor_base_frame: limits, waypoints *)
Definition corridor_base (c : cfg) (start : pt) (path : list pt) : res (lim * list pt) :=
  bind (find_closest_waypoint c start path) (fun idx =>
    let goal := last path (0, 0) in
    let l := base_box c start in
    bind (if point_in_frame l goal 0 then Ok (l, skipn idx path)
          else
            let l' := update_with_waypoint c l start goal in
            bind (get_stationary_obstacles l' (env_obs c)) (fun st =>
              if is_nil st then Ok (l', skipn idx path)
              else corridor_scan c start (skipn idx path) l []))
      (fun r => if is_nil (snd r) then Err RuntimeError else Ok r)).

(* The four directions of scale_up_frame: enlarging moves one side; used by scale_loop, frame.py 676-690 *)
Inductive dir := XPos | XNeg | YPos | YNeg.
(* with the above, frame.py 548-631 *)
Definition side (d : dir) (l : lim) : Q :=
  match d with XPos => xhi l | XNeg => xlo l | YPos => yhi l | YNeg => ylo l end.
(* with the above, frame.py 548-631 *)
Definition put (d : dir) (l : lim) (v : Q) : lim :=
  match d with
  | XPos => Lim (xlo l) (ylo l) v (yhi l)
  | XNeg => Lim v (ylo l) (xhi l) (yhi l)
  | YPos => Lim (xlo l) (ylo l) (xhi l) v
  | YNeg => Lim (xlo l) v (xhi l) (yhi l)
  end.
(* with the above, frame.py 548-631 *)
Definition outward (d : dir) (v step : Q) : Q :=
  match d with XPos | YPos => v + step | XNeg | YNeg => v - step end.
(* with the above, frame.py 548-631 *)
Definition beyond (d : dir) (v r : Q) : bool :=
  match d with XPos | YPos => ltb r v | XNeg | YNeg => ltb v r end.

(* frame.py 677-680 *)
Definition step_size (c : cfg) : Q := if scale_up_fine c then 1 # 10 else veh_size c * margin c.

(* frame.py 676-690 (and 700-713, 722-735, 744-757): the loop in one direction.
   The result is the pair of the variables xmin..ymax and of the limits of
   self.border; the `break` of line 684 leaves the enlarged border behind. *)
Fixpoint scale_loop (c : cfg) (d : dir) (fuel : nat) (l : lim) : res (lim * lim) :=
  match fuel with
  | O => Err OutOfFuel
  | S f =>
      let b := put d l (outward d (side d l) (step_size c)) in
      if beyond d (side d b) (side d (room_limits c)) then Ok (l, b)
      else
        bind (get_stationary_obstacles b (env_obs c)) (fun st =>
          if is_nil st then scale_loop c d f b else Ok (l, l))
  end.
(* frame.py 668-690 (and 693-713, 715-735, 737-757): one direction *)
Definition scale_dir (c : cfg) (d : dir) (fuel : nat) (l : lim) : res (lim * lim) :=
  let b := put d l (side d (room_limits c)) in
  bind (get_stationary_obstacles b (env_obs c)) (fun st =>
    if is_nil st then Ok (b, b) else scale_loop c d fuel l).

(* frame.py 655-757: the four directions; the limits self.border is left with *)
Definition scale_up_border (c : cfg) (fuel : nat) (l : lim) : res lim :=
  bind (scale_dir c XPos fuel l) (fun s1 =>
  bind (scale_dir c XNeg fuel (fst s1)) (fun s2 =>
  bind (scale_dir c YPos fuel (fst s2)) (fun s3 =>
  bind (scale_dir c YNeg fuel (fst s3)) (fun s4 => Ok (snd s4))))).

(* list.index; used by scale_up_frame, frame.py 655-775 *)
Fixpoint index_of (p : pt) (ws : list pt) : res nat :=
  match ws with
  | [] => Err ValueError
  | w :: rest => if pt_eqb w p then Ok O else bind (index_of p rest) (fun n => Ok (S n))
  end.
(* frame.py 763-771 *)
Fixpoint extend_waypoints (l : lim) (ws acc : list pt) : list pt :=
  match ws with
  | [] => acc
  | p :: rest =>
      if point_in_frame l p 0 then
        extend_waypoints l rest (if existsb (pt_eqb p) acc then acc else acc ++ [p])
      else acc
  end.
(* frame.py 655-775, CorridorFrame.scale_up_frame *)
Definition scale_up_frame (c : cfg) (fuel : nat) (path : list pt) (l : lim) (ws : list pt)
  : res (lim * list pt) :=
  bind (scale_up_border c fuel l) (fun b =>
  bind (index_of (last ws (0, 0)) path) (fun i =>
    Ok (b, extend_waypoints b (skipn i path) ws))).

(* frame.py 522-546, CorridorFrame.__init__ *)
Definition corridor_frame (c : cfg) (fuel : nat) (start : pt) (path : list pt) : res frame :=
  bind (corridor_base c start path) (fun '(l0, ws0) =>
  bind (scale_up_frame c fuel path l0 ws0) (fun '(l, ws) =>
  bind (reach_move_point (veh_size c) (margin c) l (removelast ws) (last ws (0, 0))) (fun ws' =>
  bind (get_stationary_obstacles l (env_obs c)) (fun st =>
    Ok (Frame (border_of l) (map Some ws') (Some (last ws' (0, 0))) st start))))).

(* ---- L-shapes ------------------------------------------------------------ *)

(* geometry.py 75-82, order_is_ccw *)
Definition order_is_ccw (p1 p2 p3 : pt) : bool :=
  ltb ((snd p2 - snd p1) * (fst p3 - fst p1)) ((snd p3 - snd p1) * (fst p2 - fst p1)).
(* geometry.py 84-95, intersect_line_segments *)
Definition intersect_line_segments (p1 p2 p3 p4 : pt) : bool :=
  xorb (order_is_ccw p1 p3 p4) (order_is_ccw p2 p3 p4) &&
  xorb (order_is_ccw p1 p2 p3) (order_is_ccw p1 p2 p4).
(* geometry.py 97-111, intersect_lines *)
Definition intersect_lines (p1 p2 p3 p4 : pt) : option pt :=
  let '(x1, y1) := p1 in let '(x2, y2) := p2 in
  let '(x3, y3) := p3 in let '(x4, y4) := p4 in
  let den := (x1 - x2) * (y3 - y4) - (y1 - y2) * (x3 - x4) in
  if eqb den 0 then None
  else Some (((x1 * y2 - y1 * x2) * (x3 - x4) - (x1 - x2) * (x3 * y4 - y3 * x4)) / den,
             ((x1 * y2 - y1 * x2) * (y3 - y4) - (y1 - y2) * (x3 * y4 - y3 * x4)) / den).

(* frame.py 877-918, find_intersection_line_segment_frame *)
Definition find_intersection (l : lim) (p1 p2 : pt) : option pt :=
  let tl := (xlo l, yhi l) in let tr := (xhi l, yhi l) in
  let br := (xhi l, ylo l) in let bl := (xlo l, ylo l) in
  if intersect_line_segments p1 p2 tl tr then intersect_lines p1 p2 tl tr
  else if intersect_line_segments p1 p2 tr br then intersect_lines p1 p2 tr br
  else if intersect_line_segments p1 p2 br bl then intersect_lines p1 p2 br bl
  else if intersect_line_segments p1 p2 bl tl then intersect_lines p1 p2 bl tl
  else None.

(* with the above, frame.py 877-918 *)
Definition tol4 : Q := 1 # 10000.
(* with the above, frame.py 877-918 *)
Definition near (a b : Q) : bool := leb (Qabs (a - b)) tol4.

(* frame.py 793-805 and its repetitions: keep the new limits only when the point
   is still inside and there is no stationary obstacle in them (the obstacles
   are only looked up when the point is inside) *)
Definition accept (c : cfg) (new old : lim) (p : pt) : res lim :=
  if point_in_frame new p 0 then
    bind (get_stationary_obstacles new (env_obs c)) (fun st =>
      Ok (if is_nil st then new else old))
  else Ok old.

(* frame.py 785-830: the four tests on the first frame, each starting from the
   limits that the previous one left *)
Definition l_first (c : cfg) (ip : pt) (l1 l2 : lim) (start : pt) : res lim :=
  bind (if near (fst ip) (xlo l2) then accept c (put XPos l1 (xhi l2)) l1 start else Ok l1) (fun a =>
  bind (if near (fst ip) (xhi l2) then accept c (put XNeg a (xlo l2)) a start else Ok a) (fun b =>
  bind (if near (snd ip) (yhi l2) then accept c (put YNeg b (ylo l2)) b start else Ok b) (fun d =>
  if near (snd ip) (ylo l2) then accept c (put YPos d (yhi l2)) d start else Ok d))).
(* frame.py 838-873: the four tests on the second frame, each starting from the
   limits that the frame had at first *)
Definition l_second (c : cfg) (ip : pt) (l1 l2 : lim) (lastw : pt) : res lim :=
  bind (if near (fst ip) (xlo l1) then accept c (put XPos l2 (xhi l1)) l2 lastw else Ok l2) (fun a =>
  bind (if near (fst ip) (xhi l1) then accept c (put XNeg l2 (xlo l1)) l2 lastw else Ok a) (fun b =>
  bind (if near (snd ip) (yhi l1) then accept c (put YNeg l2 (ylo l1)) l2 lastw else Ok b) (fun d =>
  if near (snd ip) (ylo l1) then accept c (put YPos l2 (yhi l1)) l2 lastw else Ok d))).

(* frame.py 777-875, create_l_shape: the limits of the two frames.  start is
   self.start_pos, w10 and w20 the first waypoints of the frames, w2n the last
   waypoint of the second one. *)
Definition create_l_shape (c : cfg) (l1 l2 : lim) (start w10 w20 w2n : pt) : res (lim * lim) :=
  bind (match find_intersection l2 w10 w20 with
        | Some ip => l_first c ip l1 l2 start
        | None => Ok l1
        end) (fun a =>
  bind (match find_intersection a w20 w2n with
        | Some ip => l_second c ip a l2 w2n
        | None => Ok l2
        end) (fun b => Ok (a, b))).
