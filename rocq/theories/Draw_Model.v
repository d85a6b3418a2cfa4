(* Model of the shapes of omgtools/basics/shape.py with their outlines,
   checkpoints and limits, of the draw methods of vehicles, obstacles and the
   environment, and of the collision constraints of a vehicle with one or more
   shapes and of a trailer with the vehicle that pulls it, at one instant.
   Reals are exact.  A 2 x n (3 x n) array is the list of its columns. *)
Require Import Reals List Lra Bool.
From Verif Require Import Geom_Model Angle_Model.
Import ListNotations.
Open Scope bool_scope.
Open Scope R_scope.

(* ---------- plane shapes ---------- *)

(* the two families that get_checkpoints and define_collision_constraints
   distinguish: Circle (with Cylinder) and Polyhedron, shape.py 49-77 and 130-259 *)
Inductive family := FCircle | FPolyhedron.
(* attributes of a Shape2D object: surfaces, vertices (polyhedra only), radius,
   orientation; shape.py 34-36, 51-54, 132-141 *)
Record shape2 := mkShape2 {
  family2 : family;
  surfaces2 : list (list pt);
  vertices2 : list pt;
  radius2 : R;
  orient2 : R }.

(* shape.py 56-61, Circle.get_surfaces *)
Definition circle_outline (r : R) : list pt :=
  map (fun s => (r * cos (s * 2 * PI), r * sin (s * 2 * PI))) (linspace 0 (1 - 1 / 48) 48).
(* shape.py 51-54, Circle.__init__; 75-76, Cylinder.__init__ *)
Definition circle (r : R) : shape2 := mkShape2 FCircle [circle_outline r] [] r 0.

(* shape.py 132-141, Polyhedron.__init__; get_surf is the method get_surfaces of
   the subclass *)
Definition polyhedron (get_surf : list pt -> list (list pt)) (vertices : list pt) (th radius : R) : shape2 :=
  mkShape2 FPolyhedron (map (map (rotate th)) (get_surf vertices)) (map (rotate th) vertices) radius th.
(* shape.py 143-144, Polyhedron.get_surfaces *)
Definition plain_surface (vertices : list pt) : list (list pt) := [vertices].
(* shape.py 132, the default radius 1e-3 *)
Definition thin : R := 1 / 1000.
(* shape.py 193-198, RegularPolyhedron.__init__ *)
Definition regular (r : R) (n : nat) (th : R) : shape2 :=
  polyhedron plain_surface (regular_vertices r n) th thin.
(* shape.py 217-220, Rectangle.__init__ *)
Definition rectangle (w h th : R) : shape2 := polyhedron plain_surface (rectangle_base w h) th thin.
(* shape.py 241-242, Square.__init__ *)
Definition square (side th : R) : shape2 := rectangle side side th.

(* shape.py 182-188, Beam.get_surfaces: half a circle around each end *)
Definition beam_outline (h : R) (vertices : list pt) : list (list pt) :=
  let v0 := nth 0 vertices (0, 0) in let v1 := nth 1 vertices (0, 0) in
  let s := linspace 0 (1 - 1 / 24) 24 in
  [map (fun s => (fst v0 + h / 2 * cos (s * PI - PI / 2), snd v0 + h / 2 * sin (s * PI - PI / 2))) s ++
   map (fun s => (fst v1 + h / 2 * cos (s * PI + PI / 2), snd v1 + h / 2 * sin (s * PI + PI / 2))) s].
(* shape.py 176-180, Beam.__init__ *)
Definition beam (w h th : R) : shape2 :=
  polyhedron (beam_outline h) [(w / 2, 0); (- (w / 2), 0)] th (h / 2).

(* shape.py 250-256, UFO.get_surfaces *)
Definition ufo_outline (w h : R) (vertices : list pt) : list (list pt) :=
  [combine [- (5 / 10) * w; - (2 / 10) * w; 2 / 10 * w; 5 / 10 * w; 2 / 10 * w; 15 / 100 * w; - (15 / 100) * w; - (2 / 10) * w]
           [- (15 / 100) * h; - (5 / 10) * h; - (5 / 10) * h; - (15 / 100) * h; 2 / 10 * h; 5 / 10 * h; 5 / 10 * h; 2 / 10 * h]].
(* shape.py 247-248, UFO.__init__ *)
Definition ufo (w h th : R) : shape2 := polyhedron (ufo_outline w h) (rectangle_base w h) th thin.

(* shape.py 62-63, Circle.get_checkpoints; 146-150, Polyhedron.get_checkpoints *)
Definition checkpoints2 (s : shape2) : list (pt * R) :=
  match family2 s with
  | FCircle => [((0, 0), radius2 s)]
  | FPolyhedron => map (fun v => (v, radius2 s)) (vertices2 s)
  end.
(* shape.py 65-67, Circle.get_canvas_limits; 152-156, Polyhedron.get_canvas_limits *)
Definition limits2 (s : shape2) : (R * R) * (R * R) :=
  match family2 s with
  | FCircle => ((- radius2 s, radius2 s), (- radius2 s, radius2 s))
  | FPolyhedron => canvas_limits (vertices2 s)
  end.
(* shape.py 46-47, Shape2D.draw; a pose is a position and a heading *)
Definition draw2 (s : shape2) (pose : pt * R) : list (list pt) :=
  map (map (fun v => shift (fst pose) (rotate (snd pose) v))) (surfaces2 s).

(* ---------- solid shapes ---------- *)

(* attributes of a Shape3D object, shape.py 262-264, 284-288, 341-348; ball: Sphere *)
Record shape3 := mkShape3 {
  ball3 : bool;
  surfaces3 : list (list pt3);
  vertices3 : list pt3;
  radius3 : R }.
(* roll, pitch, yaw; used by Shape3D.rotate, shape.py 269-279 *)
Notation angles := (R * R * R)%type.
(* shape.py 269-279 with the three angles as one list *)
Definition rot3 (o : angles) (v : pt3) : pt3 := rotate3 (fst (fst o)) (snd (fst o)) (snd o) v.

(* shape.py 294-298: the point l of the circle k of the upper half; nk = 5, nl = 12 *)
Definition sphere_pnt (r : R) (k l : nat) : pt3 :=
  rot3 (0, 0, INR l * PI / (12 / 2))
    (r * cos (INR k * PI / (2 * (5 - 1))), 0, r * sin (INR k * PI / (2 * (5 - 1)))).
(* shape.py 302, srf2: mirrored in the plane z = 0 *)
Definition mirrored (v : pt3) : pt3 := (fst v, - snd v).
(* shape.py 299-303: the facets k, l *)
Definition sphere_facets (r : R) (k l : nat) : list (list pt3) :=
  let srf := [sphere_pnt r k l; sphere_pnt r k ((l + 1) mod 12);
              sphere_pnt r ((k + 1) mod 5) ((l + 1) mod 12); sphere_pnt r ((k + 1) mod 5) l] in
  [srf; map mirrored srf].
(* shape.py 290-304, Sphere.get_surfaces *)
Definition sphere_surfaces (r : R) : list (list pt3) :=
  flat_map (fun k => flat_map (sphere_facets r k) (seq 0 12)) (seq 0 5).
(* shape.py 284-288, Sphere.__init__ *)
Definition sphere (r : R) : shape3 := mkShape3 true (sphere_surfaces r) [] r.

(* shape.py 341-348, Polyhedron3D.__init__ *)
Definition polyhedron3 (vertices : list pt3) (surfaces : list (list pt3)) (o : angles) (radius : R) : shape3 :=
  mkShape3 false (map (map (rot3 o)) surfaces) (map (rot3 o) vertices) radius.

(* shape.py 383-390 (RegularPrisma) and 421-428 (Cuboid): the polygon below and above *)
Definition stacked (base : list pt) (height : R) : list pt3 :=
  map (fun v => (v, - (5 / 10) * height)) base ++
  map (fun v => (v, - (5 / 10) * height + height)) base.
(* shape.py 392-399, RegularPrisma.get_surfaces; 431-438, Cuboid.get_surfaces with 4 faces *)
Definition prism_surfaces (n : nat) (vs : list pt3) : list (list pt3) :=
  let v k := nth k vs (0, 0, 0) in
  map v (seq 0 n) :: map (fun k => v (k + n)%nat) (seq 0 n) ::
  map (fun l => [v l; v ((l + 1) mod n)%nat; v (n + (l + 1) mod n)%nat; v (n + l)%nat]) (seq 0 n).
(* shape.py 366-373, RegularPrisma.__init__ *)
Definition prism (r height : R) (n : nat) (o : angles) : shape3 :=
  let vs := stacked (regular_vertices r n) height in polyhedron3 vs (prism_surfaces n vs) o thin.
(* shape.py 404-410, Cuboid.__init__ *)
Definition cuboid (w d h : R) (o : angles) : shape3 :=
  let vs := stacked (rectangle_base w d) h in polyhedron3 vs (prism_surfaces 4 vs) o thin.
(* shape.py 443-444, Cube.__init__ *)
Definition cube (side : R) (o : angles) : shape3 := cuboid side side side o.
(* shape.py 449-454, Plate.__init__: a plane shape as a solid; None is the
   AttributeError of a Circle, which has no vertices *)
Definition plate (s : shape2) (height : R) (o : angles) : option shape3 :=
  match family2 s with
  | FCircle => None
  | FPolyhedron =>
      Some (polyhedron3 (map (fun v => (v, 0)) (vertices2 s)) (map (map (fun v => (v, 0))) (surfaces2 s))
              o (5 / 10 * height))
  end.

(* shape.py 330-331, Sphere.get_checkpoints; 350-354, Polyhedron3D.get_checkpoints *)
Definition checkpoints3 (s : shape3) : list (pt3 * R) :=
  if ball3 s then [((0, 0, 0), radius3 s)] else map (fun v => (v, radius3 s)) (vertices3 s).
(* one row of a 3 x n array; with shape.py 356-361 *)
Definition row3 (k : nat) (vs : list pt3) : list R :=
  map (fun v : pt3 => match k with 0%nat => fst (fst v) | 1%nat => snd (fst v) | _ => snd v end) vs.
(* shape.py 333-336, Sphere.get_canvas_limits; 356-361, Polyhedron3D.get_canvas_limits:
   lower and upper corner *)
Definition limits3 (s : shape3) : pt3 * pt3 :=
  if ball3 s then ((- radius3 s, - radius3 s, - radius3 s), (radius3 s, radius3 s, radius3 s))
  else let vs := vertices3 s in
    ((amin (row3 0 vs), amin (row3 1 vs), amin (row3 2 vs)),
     (amax (row3 0 vs), amax (row3 1 vs), amax (row3 2 vs))).
(* shape.py 266-267, Shape3D.draw; a pose is a position and three angles *)
Definition draw3 (s : shape3) (pose : pt3 * angles) : list (list pt3) :=
  map (map (fun v => add3 (fst pose) (rot3 (snd pose) v))) (surfaces3 s).

(* ---------- drawing of vehicles, obstacles and environment ---------- *)

(* vehicle.py 458-464, Vehicle.draw: the surfaces; plane shapes *)
Definition draw_vehicle2 (shapes : list shape2) (pose : pt * R) : list (list pt) :=
  flat_map (fun s => draw2 s pose) shapes.
(* vehicle.py 458-464, Vehicle.draw: the same for solids *)
Definition draw_vehicle3 (shapes : list shape3) (pose : pt3 * angles) : list (list pt3) :=
  flat_map (fun s => draw3 s pose) shapes.
(* holonomic.py 177-178, Holonomic.state2pose *)
Definition pose_holonomic (state : pt) : pt * R := (state, 0).
(* holonomic3d.py 148-149, Holonomic3D.state2pose *)
Definition pose_holonomic3 (state : pt3) : pt3 * angles := (state, (0, 0, 0)).
(* quadrotor3d.py 297-298, Quadrotor3D.state2pose; quadrotor3d_simple.py 194-195:
   position, velocity and the two angles of the state *)
Definition pose_quadrotor3 (position : pt3) (phi theta : R) : pt3 * angles := (position, (phi, theta, 0)).
(* quadrotor.py 146-147, Quadrotor.state2pose *)
Definition pose_quadrotor (position : pt) (theta : R) : pt * R := (position, - theta).

(* a pose moved over a distance in a direction; dubins.py 342-353, bicycle.py 383-406 *)
Definition ahead (position : pt) (dist dir : R) : pt :=
  (fst position + dist * cos dir, snd position + dist * sin dir).
(* dubins.py 337-355: one shape of Dubins.draw *)
Definition draw_dubins_shape (pose : pt * R) (s : shape2) : list (list pt) :=
  let th := snd pose in
  match family2 s with
  | FCircle =>
      let r := radius2 s in
      let wheel := square (r / 3) 0 in let front := circle (r / 8) in
      draw2 s pose ++
      draw2 wheel (ahead (fst pose) (r / 2) (th - PI / 2), th) ++
      draw2 wheel (ahead (fst pose) (r / 2) (th + PI / 2), th) ++
      draw2 front (ahead (fst pose) (r / (15 / 10)) th, th)
  | FPolyhedron => draw2 s pose
  end.
(* dubins.py 335-356, Dubins.draw *)
Definition draw_dubins (shapes : list shape2) (pose : pt * R) : list (list pt) :=
  flat_map (draw_dubins_shape pose) shapes.

(* the option plot_type of Bicycle and AGV; bicycle.py 379, 398, agv.py 308, 327 *)
Inductive look := LCar | LBicycle | LAgv | LOther.
(* np.radians(30.), bicycle.py 383 *)
Definition deg30 : R := 30 * PI / 180.
(* bicycle.py 380-396 and agv.py 309-325: the body and four wheels *)
Definition draw_car (len : R) (pose : pt * R) (front back : R) : list (list pt) :=
  let p := fst pose in let th := snd pose in
  let wheel := rectangle (len / 8) (len / 10) 0 in
  let d := len / (25 / 10) in
  draw2 (rectangle len (len / 4) 0) pose ++
  draw2 wheel (ahead p d (th + deg30), front) ++
  draw2 wheel (ahead p d (th - deg30), front) ++
  draw2 wheel (ahead p (- d) (th + deg30), back) ++
  draw2 wheel (ahead p (- d) (th - deg30), back).
(* bicycle.py 399-409 and agv.py 329-339: the body and two wheels of a given size *)
Definition draw_two (len w h : R) (pose : pt * R) (front back : R) : list (list pt) :=
  let p := fst pose in let th := snd pose in
  draw2 (rectangle len (len / 4) 0) pose ++
  draw2 (rectangle w h 0) (ahead p (len / 3) th, front) ++
  draw2 (rectangle w h 0) (ahead p (- (len / 3)) th, back).
(* bicycle.py 377-410, Bicycle.draw: steered in front *)
Definition draw_bicycle (k : look) (len : R) (pose : pt * R) (delta : R) : list (list pt) :=
  match k with
  | LCar => draw_car len pose (snd pose + delta) (snd pose)
  | LBicycle => draw_two len (len / 2) (len / 6) pose (snd pose + delta) (snd pose)
  | _ => []
  end.
(* agv.py 306-340, AGV.draw: steered at the back *)
Definition draw_agv (k : look) (len : R) (pose : pt * R) (delta : R) : list (list pt) :=
  match k with
  | LCar => draw_car len pose (snd pose) (snd pose + delta)
  | LAgv => draw_two len (len / 10) (len / 14) pose (snd pose) (snd pose + delta)
  | _ => []
  end.
(* bicycle.py 57-58, the shape of a Bicycle *)
Definition bicycle_shape (len : R) : shape2 := circle (len / 2).
(* agv.py 55-56, the shape of an AGV *)
Definition agv_shape : shape2 := rectangle (8 / 10) (2 / 10) 0.

(* quadrotor.py 154-163, Quadrotor.draw: one line *)
Definition draw_quadrotor (r : R) (pose : pt * R) : list (list pt) :=
  let h := 2 / 10 * r in let rw := 1 / 3 * r in
  [map (fun v => shift (fst pose) (rotate (snd pose) v))
     [(r, h); (r - 2 * rw, h); (r - rw, h); (r - rw, 0); (- r + rw, 0); (- r + rw, h); (- r, h); (- r + 2 * rw, h)]].
(* quadrotor3d.py 307-312, quadrotor3d_simple.py 204-209: the matrix rot *)
Definition rot_quad (phi theta : R) (v : pt3) : pt3 :=
  let '(x, y, z) := v in
  (cos theta * x + sin phi * sin theta * y + cos phi * sin theta * z,
   cos phi * y - sin phi * z,
   - sin theta * x + sin phi * cos theta * y + cos phi * cos theta * z).
(* quadrotor3d.py 306-335, quadrotor3d_simple.py 203-232: two frames and four rotors *)
Definition draw_quadrotor3 (r : R) (pose : pt3 * angles) : list (list pt3) :=
  let place := fun v => add3 (rot_quad (fst (fst (snd pose))) (snd (fst (snd pose))) v) (fst pose) in
  let h := 2 / 10 * r in let rw := 1 / 3 * r in
  let frame := combine [r - rw; r - rw; - r + rw; - r + rw] [h; 0; 0; h] in
  let ring := map (fun s => (rw * cos (s * 2 * PI), rw * sin (s * 2 * PI))) (linspace 0 (1 - 1 / 48) 48) in
  map (fun v => place (fst v, 0, snd v)) frame ::
  map (fun v => place (0, fst v, snd v)) frame ::
  map (fun c : pt => map (fun v : pt => place (fst v + fst c, snd v + snd c, 0 + h)) ring)
    [(r - rw, 0); (0, r - rw); (- r + rw, 0); (0, - r + rw)].

(* which class a shape of a trailer belongs to; trailer.py 214-220 *)
Inductive tshape := TCircle (r : R) | TSquare (side th : R) | TRectangle (w h th : R) | TOther (s : shape2).
(* the object itself; with trailer.py 211-220 *)
Definition tshape_shape (s : tshape) : shape2 :=
  match s with TCircle r => circle r | TSquare a th => square a th | TRectangle w h th => rectangle w h th | TOther s => s end.
(* trailer.py 214-220: where the bar to the vehicle starts; None is the ValueError *)
Definition bar_start (s : tshape) : option R :=
  match s with
  | TCircle r => Some r
  | TSquare a th => Some (radius2 (square a th))
  | TRectangle w _ _ => Some (w / 2)
  | TOther _ => None
  end.
(* trailer.py 211-228: surfaces and bars of the trailer *)
Fixpoint draw_trailer_own (l_hitch : R) (shapes : list tshape) (pose : pt * R) : option (list (list pt) * list (list pt)) :=
  match shapes with
  | [] => Some ([], [])
  | s :: rest =>
      match bar_start s, draw_trailer_own l_hitch rest pose with
      | Some d, Some (surf, lines) =>
          Some (draw2 (tshape_shape s) pose ++ surf,
                [ahead (fst pose) d (snd pose); ahead (fst pose) l_hitch (snd pose)] :: lines)
      | _, _ => None
      end
  end.
(* trailer.py 209-237, Trailer.draw with a Dubins vehicle in front *)
Definition draw_trailer (l_hitch : R) (shapes : list tshape) (lead : list shape2) (pose pose_lead : pt * R) :
    option (list (list pt) * list (list pt)) :=
  match draw_trailer_own l_hitch shapes pose with
  | Some (surf, lines) => Some (surf ++ draw_dubins lead pose_lead, lines)
  | None => None
  end.

(* obstacle.py 510-516, Obstacle2D.draw: without the option draw it returns one
   list instead of two: None is the ValueError of the caller, environment.py 342 *)
Definition draw_obstacle2 (shown : bool) (s : shape2) (position : pt) (th : R) : option (list (list pt)) :=
  if shown then Some (draw2 s (position, th)) else None.
(* obstacle.py 266-271, ObstaclexD.draw for a solid *)
Definition draw_obstacle3 (shown : bool) (s : shape3) (position : pt3) : list (list pt3) :=
  if shown then draw3 s (position, (0, 0, 0)) else [].

(* a room of the environment, environment.py 37-57 *)
Record room2 := mkRoom2 { r_shape : shape2; r_pos : pt; r_orient : R; r_draw : bool }.
(* an obstacle with its last signals; obstacle.py 510-516 *)
Record obst2 := mkObst2 { o_shown : bool; o_shape : shape2; o_pos : pt; o_orient : R }.
(* environment.py 341-349: the obstacles *)
Fixpoint draw_obstacles2 (os : list obst2) : option (list (list pt)) :=
  match os with
  | [] => Some []
  | o :: rest =>
      match draw_obstacle2 (o_shown o) (o_shape o) (o_pos o) (o_orient o), draw_obstacles2 rest with
      | Some s, Some t => Some (s ++ t)
      | _, _ => None
      end
  end.
(* environment.py 333-350, Environment.draw in the plane *)
Definition draw_environment2 (rooms : list room2) (os : list obst2) : option (list (list pt)) :=
  match draw_obstacles2 os with
  | Some t =>
      Some (flat_map (fun q => if r_draw q then draw2 (r_shape q) (r_pos q, r_orient q) else []) rooms ++ t)
  | None => None
  end.

(* ---------- constraints of a vehicle with several shapes ---------- *)

(* a hyperplane with its slack variable eps, at one instant; environment.py 133-143,
   vehicle.py 129-142 *)
Record hyp := mkHyp { h_a : pt; h_b : R; h_eps : R }.
(* a Python dictionary from shapes to hyperplanes: objects have an identity *)
Notation hyps := (list (nat * list hyp)).
(* lookup `shape in hyperplanes`, vehicle.py 126-127 *)
Fixpoint find_hyps (id : nat) (m : hyps) : option (list hyp) :=
  match m with
  | [] => None
  | (k, hs) :: rest => if Nat.eqb k id then Some hs else find_hyps id rest
  end.
(* environment.py 123-143: an entry for every shape of the vehicle, a hyperplane
   for every obstacle; hy k l is the hyperplane of shape k and obstacle l *)
Definition env_hyps (shapes : list (nat * shape2)) (n_obs : nat) (hy : nat -> nat -> hyp) : hyps :=
  map (fun ks => (fst (snd ks), map (hy (fst ks)) (seq 0 n_obs))) (combine (seq 0 (length shapes)) shapes).
(* environment.py 137-138, 145 and obstacle.py 334-343: norm constraints and the
   constraints of the obstacles, for obstacles placed at a position and heading
   (weight 1, obstacle.py 294-298) *)
Definition obstacle_cons (n_shapes : nat) (os : list (shape2 * (pt * R))) (hy : nat -> nat -> hyp) : list R :=
  flat_map (fun k => flat_map (fun lo =>
    let h := hy k (fst lo) in let '(s, (pos, th)) := snd lo in
    norm_con (h_a h) ::
    map (fun c => obs_con (h_a h) (h_b h) (fst c) (snd c) pos (cos th) (sin th) 1) (checkpoints2 s))
    (combine (seq 0 (length os)) os)) (seq 0 n_shapes).
(* vehicle.py 127-158: the avoidance constraints of one shape at one place *)
Definition shape_cons (s : nat * shape2) (m : hyps) (sd : R) (position : pt) (tg off : R) : list R :=
  match find_hyps (fst s) m with
  | None => []
  | Some hs =>
      flat_map (fun h => map (fun c =>
        veh_con (h_a h) (h_b h) (fst c) (snd c) 1 sd (h_eps h) position tg off) (checkpoints2 (snd s))) hs
  end.
(* vehicle.py 119-123: every vehicle passes one position, so that positions[s] is
   an IndexError (None) from the second shape on *)
Definition vehicle_cons (shapes : list (nat * shape2)) (m : hyps) (sd : R) (position : pt) (tg off : R) : option (list R) :=
  match shapes with
  | [] => Some []
  | [s] => Some (shape_cons s m sd position tg off)
  | _ => None
  end.
(* dubins.py 255-260 (also agv.py 235-240, bicycle.py 273-278): a circle needs no
   heading; None is also the IndexError of shapes[0] *)
Definition dubins_cons (shapes : list (nat * shape2)) (m : hyps) (sd : R) (position : pt) (tg : R) : option (list R) :=
  match shapes with
  | [] => None
  | (_, s) :: _ =>
      vehicle_cons shapes m sd position (match family2 s with FCircle => 0 | FPolyhedron => tg end) 0
  end.
(* an exception in one of two calls; with trailer.py 168-169 *)
Definition both (a b : option (list R)) : option (list R) :=
  match a, b with Some x, Some y => Some (x ++ y) | _, _ => None end.
(* trailer.py 162-169, Trailer.define_collision_constraints *)
Definition trailer_cons (shapes lead : list (nat * shape2)) (m : hyps) (sd sd_lead l_hitch : R)
    (position : pt) (tg_tr tg_veh : R) : option (list R) :=
  both (vehicle_cons shapes m sd position tg_tr (- l_hitch)) (dubins_cons lead m sd_lead position tg_veh).
(* environment.py 102-146 for a Dubins vehicle in one room *)
Definition dubins_problem (shapes : list (nat * shape2)) (os : list (shape2 * (pt * R)))
    (hy : nat -> nat -> hyp) (sd : R) (position : pt) (tg : R) : option (list R) :=
  both (Some (obstacle_cons (length shapes) os hy))
       (dubins_cons shapes (env_hyps shapes (length os) hy) sd position tg).
(* environment.py 102-146 for a trailer in one room: the hyperplanes are those of
   the shapes of the trailer *)
Definition trailer_problem (shapes lead : list (nat * shape2)) (os : list (shape2 * (pt * R)))
    (hy : nat -> nat -> hyp) (sd sd_lead l_hitch : R) (position : pt) (tg_tr tg_veh : R) : option (list R) :=
  both (Some (obstacle_cons (length shapes) os hy))
       (trailer_cons shapes lead (env_hyps shapes (length os) hy) sd sd_lead l_hitch position tg_tr tg_veh).
(* holonomic.py 161-163 (no heading) and holonomicorient.py 158-160 (heading) *)
Definition holonomic_problem (shapes : list (nat * shape2)) (os : list (shape2 * (pt * R)))
    (hy : nat -> nat -> hyp) (sd : R) (position : pt) (tg : R) : option (list R) :=
  both (Some (obstacle_cons (length shapes) os hy))
       (vehicle_cons shapes (env_hyps shapes (length os) hy) sd position tg 0).

(* ---------- solids ---------- *)

(* a hyperplane in space with its slack variable; environment.py 133-143, vehicle.py 129-142 *)
Record hyp3 := mkHyp3 { h3_a : pt3; h3_b : R; h3_eps : R }.
(* environment.py 133-145 and obstacle.py 528-533: norm constraints and the constraints of
   the obstacles, for a vehicle with one shape; an obstacle is a solid at a place *)
Definition obstacle_cons3 (os : list (shape3 * pt3)) (hy : nat -> hyp3) : list R :=
  flat_map (fun lo =>
    let h := hy (fst lo) in let '(s, pos) := snd lo in
    norm_con3 (h3_a h) ::
    map (fun c => obs_con3 (h3_a h) (h3_b h) (fst c) pos (snd c)) (checkpoints3 s))
    (combine (seq 0 (length os)) os).
(* vehicle.py 192-221: the avoidance constraints of the shape; no heading *)
Definition vehicle_cons3 (s : shape3) (n_obs : nat) (hy : nat -> hyp3) (sd : R) (position : pt3) : list R :=
  flat_map (fun l => map (fun c =>
    veh_con3 (h3_a (hy l)) (h3_b (hy l)) (fst c) position (snd c) sd (h3_eps (hy l))) (checkpoints3 s))
    (seq 0 n_obs).
(* environment.py 102-146 for a vehicle in space with one shape; holonomic3d.py 131-133 *)
Definition solid_problem (s : shape3) (os : list (shape3 * pt3)) (hy : nat -> hyp3) (sd : R) (position : pt3) : list R :=
  obstacle_cons3 os hy ++ vehicle_cons3 s (length os) hy sd position.
(* vehicle.py 165-177: the room constraints of one shape that does not turn, in an upright
   rectangular room; room['orientation'] is not used *)
Definition room_problem (q : room2) (s : shape2) (position : pt) : list R :=
  flat_map (fun c => room_cons (limits2 (r_shape q)) (r_pos q) (fst c) position (snd c)) (checkpoints2 s).
