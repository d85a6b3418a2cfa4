Require Import Reals List ZArith Lra Lia Bool.
Require Import Verif.Geom_Model Verif.Geom_Spec Verif.Geom_Proofs Verif.Geom_Proofs2 Verif.Geom_Proofs3 Verif.Geom_Proofs4 Verif.Geom_Proofs5.
Import ListNotations.
Open Scope R_scope.

(* two upright rectangles: true exactly when they share a point *)
Theorem C22_overlap : forall s1 p1 s2 p2, rth s1 = 0 -> rth s2 = 0 ->
  0 <= rw s1 -> 0 <= rh s1 -> 0 <= rw s2 -> 0 <= rh s2 ->
  exists b, rectangles_overlap s1 p1 s2 p2 = Some b /\
   (b = true <-> exists x, in_box p1 (rw s1) (rh s1) x /\ in_box p2 (rw s2) (rh s2) x).
Proof. exact overlap_iff. Qed.
(* touching in the corner (1,1) counts, one millimetre further does not *)
Example C22_touch : rectangles_overlap (mkRect 2 2 0) (0, 0) (mkRect 4 2 0) (3, 2) = Some true.
Proof.
  destruct (overlap_iff (mkRect 2 2 0) (0, 0) (mkRect 4 2 0) (3, 2)) as [b [E H]]; cbn [rw rh rth]; try lra.
  rewrite E. f_equal. apply H. exists (1, 1). unfold in_box; cbn [fst snd rw rh]. rewrite !Rabs_le_iff. lra.
Qed.
Example C22_apart : rectangles_overlap (mkRect 2 2 0) (0, 0) (mkRect 4 2 0) (3.001, 2) = Some false.
Proof.
  destruct (overlap_iff (mkRect 2 2 0) (0, 0) (mkRect 4 2 0) (3.001, 2)) as [b [E H]]; cbn [rw rh rth]; try lra.
  rewrite E. f_equal. apply not_true_is_false. intros Hb. apply H in Hb as [[x y] Hx].
  unfold in_box in Hx; cbn [fst snd rw rh] in Hx. rewrite !Rabs_le_iff in Hx. lra.
Qed.
Print Assumptions C22_overlap.

Theorem C22_raises : forall s1 p1 s2 p2,
  rectangles_overlap s1 p1 s2 p2 = None <-> (rth s1 <> 0 \/ rth s2 <> 0).
Proof. exact overlap_raises. Qed.
Example C22_raises_ex : rectangles_overlap (mkRect 2 2 1) (0, 0) (mkRect 4 2 0) (3, 2) = None.
Proof. apply overlap_raises. left; cbn; lra. Qed.
Print Assumptions C22_raises.

Theorem C22_symmetric : forall s1 p1 s2 p2, rectangles_overlap s1 p1 s2 p2 = rectangles_overlap s2 p2 s1 p1.
Proof. exact overlap_sym. Qed.
Print Assumptions C22_symmetric.

(* the returned point is in both and the common part is symmetric about it;
   the exception is raised only when nothing is shared *)
Theorem C22_center : forall s1 p1 s2 p2, rth s1 = 0 -> rth s2 = 0 ->
  0 <= rw s1 -> 0 <= rh s1 -> 0 <= rw s2 -> 0 <= rh s2 ->
  match overlap_center s1 p1 s2 p2 with
  | Some c => in_box p1 (rw s1) (rh s1) c /\ in_box p2 (rw s2) (rh s2) c /\
      forall x, in_box p1 (rw s1) (rh s1) x -> in_box p2 (rw s2) (rh s2) x ->
        in_box p1 (rw s1) (rh s1) (2 * fst c - fst x, 2 * snd c - snd x) /\
        in_box p2 (rw s2) (rh s2) (2 * fst c - fst x, 2 * snd c - snd x)
  | None => forall x, ~ (in_box p1 (rw s1) (rh s1) x /\ in_box p2 (rw s2) (rh s2) x)
  end.
Proof. exact center_spec. Qed.
Example C22_center_ex : overlap_center (mkRect 4 4 0) (0, 0) (mkRect 4 2 0) (3, 2) = Some (3 / 2, 3 / 2).
Proof.
  unfold overlap_center. rewrite !rlimits0 by (cbn; lra). cbn [rw rh fst snd].
  unfold limits_overlap; cbn [fst snd]. rewrite !(proj2 (Rleb_le _ _)) by lra. cbn [andb].
  f_equal. apply f_equal2; unfold Rmax, Rmin; repeat destruct Rle_dec; lra.
Qed.
Print Assumptions C22_center.

(* the returned point is the only common point of the two lines *)
Theorem C23_point : forall l1 l2 x, intersect_lines l1 l2 = Some x ->
  on_line (fst l1) (snd l1) x /\ on_line (fst l2) (snd l2) x /\
  forall y, on_line (fst l1) (snd l1) y -> on_line (fst l2) (snd l2) y -> y = x.
Proof. exact intersect_lines_some. Qed.
Example C23_point_ex : intersect_lines ((0, 0), (2, 2)) ((0, 4), (4, 0)) = Some (2, 2).
Proof.
  unfold intersect_lines, Reqb0. destruct Req_EM_T as [E | E]; [exfalso; lra |].
  f_equal; f_equal; field.
Qed.
Print Assumptions C23_point.

(* no answer exactly for parallel directions *)
Theorem C23_none : forall l1 l2, fst l1 <> snd l1 ->
  (intersect_lines l1 l2 = None <->
   exists k, fst (snd l2) - fst (fst l2) = k * (fst (snd l1) - fst (fst l1)) /\
             snd (snd l2) - snd (fst l2) = k * (snd (snd l1) - snd (fst l1))).
Proof. exact intersect_lines_none. Qed.
Example C23_none_ex : intersect_lines ((0, 0), (2, 2)) ((0, 4), (3, 7)) = None.
Proof. apply intersect_lines_none; [intros E; injection E; lra |]. exists (3 / 2); cbn [fst snd]; lra. Qed.
Print Assumptions C23_none.

(* a positive answer means a common point *)
Theorem C23_segments_sound : forall p1 p2 p3 p4, intersect_line_segments p1 p2 p3 p4 = true ->
  exists x, on_segment p1 p2 x /\ on_segment p3 p4 x.
Proof. exact segments_sound. Qed.
Print Assumptions C23_segments_sound.

(* segments that cross in an inner point of both are reported *)
Theorem C23_segments_crossing : forall p1 p2 p3 p4 s t,
  0 < s < 1 -> 0 < t < 1 -> between s p1 p2 = between t p3 p4 ->
  (fst p2 - fst p1) * (snd p4 - snd p3) - (snd p2 - snd p1) * (fst p4 - fst p3) <> 0 ->
  intersect_line_segments p1 p2 p3 p4 = true.
Proof. exact segments_crossing. Qed.
Example C23_crossing_ex : intersect_line_segments (0, 0) (2, 2) (0, 2) (2, 0) = true.
Proof.
  apply (segments_crossing _ _ _ _ (1 / 2) (1 / 2)); try lra; cbn [fst snd]; [| lra].
  unfold between; cbn [fst snd]; f_equal; field.
Qed.
Print Assumptions C23_segments_crossing.

(* but an end point resting on the other segment can be missed *)
Theorem C23_touching_refuted : exists p1 p2 p3 p4 x,
  on_segment p1 p2 x /\ on_segment p3 p4 x /\ intersect_line_segments p1 p2 p3 p4 = false.
Proof. exact touching_missed. Qed.
Print Assumptions C23_touching_refuted.

(* a reported intersection is one up to twice the tolerance 1e-6 *)
Theorem C24_sound : forall c r vs pos, (forall p q, edge vs p q -> p <> q) ->
  circle_polyhedron_intersection c r vs pos = true ->
  exists x, boundary (map (moved pos) vs) x /\ dist c x <= r + 2 * eps6.
Proof. exact circle_sound. Qed.
Print Assumptions C24_sound.

(* the first two vertices are found *)
Theorem C24_vertex : forall c r vs pos k v, (k < 2)%nat -> nth_error vs k = Some v ->
  dist c (moved pos v) <= r -> circle_polyhedron_intersection c r vs pos = true.
Proof. exact circle_vertex. Qed.
Print Assumptions C24_vertex.

(* an edge that does not descend is found when the nearest point is inside it *)
Theorem C24_edge : forall c r vs pos p q x, edge vs p q -> p <> q ->
  0 <= (fst q - fst p) * (snd q - snd p) ->
  on_segment (moved pos p) (moved pos q) x ->
  (fst c - fst x) * (fst q - fst p) + (snd c - snd x) * (snd q - snd p) = 0 ->
  dist c x <= r -> circle_polyhedron_intersection c r vs pos = true.
Proof. exact circle_edge. Qed.
Example C24_edge_ex : circle_polyhedron_intersection (-1, 1) (4 / 5) diamond (0, 0) = true.
Proof.
  apply (circle_edge _ _ _ _ (-1, 0) (0, 1) (- (1 / 2), 1 / 2)); cbn [fst snd]; try lra.
  - apply edges4; tauto.
  - intros E; injection E; lra.
  - exists (1 / 2). split; [lra |]. unfold between, moved; cbn [fst snd]; f_equal; lra.
  - apply dist_le_iff; unfold Rsqr; cbn [fst snd]; lra.
Qed.
Print Assumptions C24_edge.

(* for an upright rectangle only discs off a left corner can be missed *)
Theorem C24_upright : forall w h pos c r, 0 < w -> 0 < h -> 0 <= r ->
  (exists x, in_box pos w h x /\ dist c x <= r) ->
  (fst pos - w / 2 <= fst c \/ Rabs (snd c - snd pos) <= h / 2) ->
  circle_poly c r (rectangle_vertices w h 0) pos = true.
Proof. exact circle_upright. Qed.
Example C24_upright_ex : circle_poly (3 / 2, 3 / 2) (4 / 5) (rectangle_vertices 2 2 0) (0, 0) = true.
Proof.
  apply circle_upright; cbn [fst snd]; try lra.
  exists (1, 1). split; [unfold in_box; cbn [fst snd]; rewrite !Rabs_le_iff; lra |].
  apply dist_le_iff; unfold Rsqr; cbn [fst snd]; lra.
Qed.
Print Assumptions C24_upright.

(* a disc that contains the lower left corner is missed *)
Theorem C24_corner_refuted : exists c r pos x,
  0 < r /\ in_box pos 2 2 x /\ dist c x < r /\
  circle_poly c r (rectangle_vertices 2 2 0) pos = false.
Proof. exact corner_missed. Qed.
Print Assumptions C24_corner_refuted.

(* a disc cutting a descending edge is missed *)
Theorem C24_descending_refuted : exists c r x,
  boundary diamond x /\ dist c x < r /\ circle_poly c r diamond (0, 0) = false.
Proof. exact descending_missed. Qed.
Print Assumptions C24_descending_refuted.

(* vehicle against obstacle *)
Theorem C25_collision_free : forall a b vchk rv sd eps position th off ochk ro opos w phi,
  cos (th / 2) <> 0 -> 0 < w -> norm_con a <= 0 ->
  (forall c, In c vchk -> veh_con a b c rv 1 sd eps position (tan (th / 2)) off <= 0) ->
  (forall c, In c ochk -> obs_con a b c ro opos (w * cos phi) (w * sin phi) w <= 0) ->
  forall x y, hull (map (world position th off) vchk) x -> hull (map (world opos phi 0) ochk) y ->
  rv + ro + (sd - eps) <= dist x y.
Proof. exact collision_free. Qed.
(* a disc vehicle of radius 1/2 at the origin and a square obstacle at (3,0) *)
Example C25_ex :
  norm_con (1, 0) <= 0 /\
  (forall c, In c [(0, 0)] -> veh_con (1, 0) 1 c (1 / 2) 1 (1 / 10) 0 (0, 0) (tan (0 / 2)) 0 <= 0) /\
  (forall c, In c square2 -> obs_con (1, 0) 1 c (1 / 1000) (3, 0) (1 * cos 0) (1 * sin 0) 1 <= 0).
Proof.
  split; [unfold norm_con; cbn [fst snd]; lra |]. split.
  - intros c [<- | []]. replace (0 / 2) with 0 by field. rewrite tan_0. unfold veh_con; cbn [fst snd]; lra.
  - rewrite cos_0, sin_0. intros c Hc. simpl in Hc.
    destruct Hc as [<- | [<- | [<- | [<- | []]]]]; unfold obs_con; cbn [fst snd]; lra.
Qed.
Print Assumptions C25_collision_free.

(* bodies that far apart share no inner point *)
Theorem C25_no_common_interior : forall vs os m n, 0 <= m -> 0 <= n ->
  (forall x y, hull vs x -> hull os y -> m + n <= dist x y) ->
  forall z c d, hull vs c -> hull os d -> dist c z < m -> dist d z < n -> False.
Proof. exact no_common_interior. Qed.
Print Assumptions C25_no_common_interior.

(* vehicle against vehicle (opposite hyperplanes) *)
Theorem C25_vehicles_apart : forall a b c1 r1 p1 t1 o1 s1 e1 c2 r2 p2 t2 o2 s2 e2,
  cos (t1 / 2) <> 0 -> cos (t2 / 2) <> 0 -> norm_con a <= 0 ->
  (forall c, In c c1 -> veh_con a b c r1 1 s1 e1 p1 (tan (t1 / 2)) o1 <= 0) ->
  (forall c, In c c2 -> veh_con (- fst a, - snd a) (- b) c r2 1 s2 e2 p2 (tan (t2 / 2)) o2 <= 0) ->
  forall x y, hull (map (world p1 t1 o1) c1) x -> hull (map (world p2 t2 o2) c2) y ->
  (r1 + s1 - e1) + (r2 + s2 - e2) <= dist x y.
Proof. exact vehicles_apart. Qed.
Example C25_vehicles_ex :
  (forall c, In c [(0, 0)] -> veh_con (1, 0) 1 c (1 / 2) 1 0 0 (0, 0) (tan (0 / 2)) 0 <= 0) /\
  (forall c, In c [(0, 0)] -> veh_con (- fst (1, 0), - snd (1, 0)) (- (1)) c (1 / 2) 1 0 0 (2, 1) (tan (0 / 2)) 0 <= 0).
Proof.
  replace (0 / 2) with 0 by field. rewrite tan_0.
  split; intros c [<- | []]; unfold veh_con; cbn [fst snd]; lra.
Qed.
Print Assumptions C25_vehicles_apart.

(* the same in space *)
Theorem C25_collision_free_3d : forall a b vchk rv sd eps position ochk ro opos,
  norm_con3 a <= 0 ->
  (forall c, In c vchk -> veh_con3 a b c position rv sd eps <= 0) ->
  (forall c, In c ochk -> obs_con3 a b c opos ro <= 0) ->
  forall x y, hull3 (map (plus3 position) vchk) x -> hull3 (map (plus3 opos) ochk) y ->
  rv + ro + (sd - eps) <= dist3 x y.
Proof. exact collision_free3. Qed.
Example C25_3d_ex :
  norm_con3 (0, 0, 1) <= 0 /\
  (forall c, In c [(0, 0, 0)] -> veh_con3 (0, 0, 1) 1 c (0, 0, 0) (1 / 2) (1 / 10) 0 <= 0) /\
  (forall c, In c [(0, 0, 0); (1, 1, 1)] -> obs_con3 (0, 0, 1) 1 c (5, 5, 3) (1 / 2) <= 0).
Proof.
  split; [unfold norm_con3, dot3; lra |]. split; intros c Hc; simpl in Hc;
  repeat (destruct Hc as [<- | Hc]); try contradiction; unfold veh_con3, obs_con3, dot3, add3; lra.
Qed.
Print Assumptions C25_collision_free_3d.

(* Rectangle(w, h, th) has the four expected corners, clockwise *)
Theorem C63_rectangle : forall w h th, rectangle_vertices w h th =
  map (turned th) [(w / 2, h / 2); (w / 2, - (h / 2)); (- (w / 2), - (h / 2)); (- (w / 2), h / 2)].
Proof. exact rectangle_vertices_eq. Qed.
Print Assumptions C63_rectangle.

(* RegularPolyhedron(r, n): vertices on the circle of radius r, equally spaced *)
Theorem C63_regular : forall r n l, (3 <= n)%nat -> (l < n)%nat ->
  nth_error (regular_vertices r n) l =
  Some (r * sin (INR (2 * l + 1) * PI / INR n), r * cos (INR (2 * l + 1) * PI / INR n)).
Proof. exact regular_vertex. Qed.
Example C63_triangle : nth_error (regular_vertices 1 3) 1 = Some (0, -1).
Proof.
  rewrite regular_vertex by lia. simpl INR.
  replace ((1 + 1 + 1) * PI / (1 + 1 + 1)) with PI by (field).
  rewrite sin_PI, cos_PI. f_equal; f_equal; ring.
Qed.
Print Assumptions C63_regular.

(* a (turned) rectangle: exactly its points, widened by the margin *)
Theorem C64_rectangle : forall w h th pos m x, 0 < w -> 0 < h ->
  (point_in_polyhedron x (rectangle_vertices w h th) pos m = true <->
   in_rect pos (w + 2 * m) (h + 2 * m) th x).
Proof. exact in_rectangle_iff. Qed.
Example C64_ex : point_in_polyhedron (3, 1) (rectangle_vertices 4 2 0) (1, 1) 0 = true /\
  point_in_polyhedron (3.5, 1) (rectangle_vertices 4 2 0) (1, 1) 0 = false.
Proof.
  split; [| apply not_true_is_false]; rewrite in_rectangle_iff by lra;
    unfold in_rect; cbn [fst snd]; rewrite cos_0, sin_0, !Rabs_le_iff; lra.
Qed.
Print Assumptions C64_rectangle.

(* any polygon: the signed distance to the right of every side is at most the margin *)
Theorem C64_sides : forall x vs pos m, (forall p q, edge vs p q -> p <> q) ->
  (point_in_polyhedron x vs pos m = true <->
   forall p q, edge vs p q ->
     let p' := moved pos p in let q' := moved pos q in
     (fst q' - fst p') * (snd x - snd p') - (snd q' - snd p') * (fst x - fst p') <= m * dist p q).
Proof. exact in_polyhedron_iff. Qed.
Print Assumptions C64_sides.

(* no point of a clockwise convex polygon is rejected *)
Theorem C64_clockwise : forall x vs pos, (forall p q, edge vs p q -> p <> q) ->
  (forall p q v, edge vs p q -> In v vs -> right_of p q v) ->
  hull (map (moved pos) vs) x -> point_in_polyhedron x vs pos 0 = true.
Proof. exact in_polyhedron_hull. Qed.
Example C64_clockwise_ex : point_in_polyhedron (5, 11 / 2) diamond (5, 5) 0 = true.
Proof.
  apply in_polyhedron_hull; [apply diamond_edges | apply diamond_convex |].
  replace (5, 11 / 2) with (between (1 / 4) (5, 6) (5, 4)) by (unfold between; cbn [fst snd]; f_equal; lra).
  apply hull_mix; [lra | |]; apply hull_vertex; unfold diamond, moved; cbn [map fst snd In].
  - left; apply f_equal2; lra.
  - right; right; left; apply f_equal2; lra.
Qed.
Print Assumptions C64_clockwise.

(* but a counter-clockwise polygon rejects its own points *)
Theorem C64_counterclockwise_refuted : exists vs x, hull vs x /\ point_in_polyhedron x vs (0, 0) 0 = false.
Proof. exists ccw_square, (0, 0). exact ccw_rejected. Qed.
Print Assumptions C64_counterclockwise_refuted.

(* distance_between_points raises exactly on different dimensions *)
Theorem C65_length : forall p q, distance_between_points p q = None <-> length p <> length q.
Proof. exact dbp_length. Qed.
Print Assumptions C65_length.

Theorem C65_zero : forall p q, distance_between_points p q = Some 0 <-> p = q.
Proof. exact dbp_zero. Qed.
Print Assumptions C65_zero.

Theorem C65_symmetric : forall p q, distance_between_points p q = distance_between_points q p.
Proof. exact dbp_sym. Qed.
Print Assumptions C65_symmetric.

Theorem C65_triangle : forall p q r d1 d2 d3,
  distance_between_points p q = Some d1 -> distance_between_points q r = Some d2 ->
  distance_between_points p r = Some d3 -> d3 <= d1 + d2.
Proof. exact dbp_triangle. Qed.
Example C65_ex : distance_between_points [0; 0; 1] [3; 4; 1] = Some 5.
Proof.
  unfold distance_between_points; simpl. f_equal.
  replace ((3 - 0) * ((3 - 0) * 1) + ((4 - 0) * ((4 - 0) * 1) + ((1 - 1) * ((1 - 1) * 1) + 0))) with (5 * 5) by ring.
  apply sqrt_square; lra.
Qed.
Print Assumptions C65_triangle.

(* distance_to_line is the distance to the nearest point of the line *)
Theorem C65_line : forall p v1 v2, v1 <> v2 ->
  (forall x, on_line v1 v2 x -> distance_to_line p v1 v2 <= dist p x) /\
  (exists x, on_line v1 v2 x /\ distance_to_line p v1 v2 = dist p x).
Proof. exact distance_to_line_spec. Qed.
Example C65_line_ex : distance_to_line (3, 7) (0, 1) (5, 1) = 6.
Proof. rewrite dtl_horz by lra. cbn [snd]. rewrite Rabs_pos_eq; lra. Qed.
Print Assumptions C65_line.

(* distance_to_rectangle: signed distance to the nearer vertical and horizontal side *)
Theorem C65_rectangle : forall p w h pos, 0 < w -> 0 < h ->
  let left := fst pos - w / 2 in let right := fst pos + w / 2 in
  let bottom := snd pos - h / 2 in let top := snd pos + h / 2 in
  fst (distance_to_rectangle p (rectangle_vertices w h 0) pos) =
  (if Rltb (Rabs (fst p - left)) (Rabs (fst p - right)) then - Rabs (fst p - left) else Rabs (fst p - right),
   if Rltb (Rabs (snd p - bottom)) (Rabs (snd p - top)) then Rabs (snd p - bottom) else - Rabs (snd p - top)).
Proof. exact dtr_upright. Qed.
Print Assumptions C65_rectangle.

(* but asking twice gives another answer: the first call moves the stored vertices *)
Theorem C65_repeat_refuted : exists p vs pos,
  let first := distance_to_rectangle p vs pos in
  fst (distance_to_rectangle p (snd first) pos) <> fst first.
Proof. exact not_repeatable. Qed.
Print Assumptions C65_repeat_refuted.

Theorem C66_static : forall p xmin ymin xmax ymax d,
  point_in_rectangle p (xmin, ymin, xmax, ymax) d = true <->
  (xmin + d <= fst p <= xmax - d /\ ymin + d <= snd p <= ymax - d).
Proof. exact static_iff. Qed.
Print Assumptions C66_static.

(* a moving point reported inside is inside at some time of the horizon *)
Theorem C66_moving_sound : forall p l h v, 0 <= h -> moving_point_in_rectangle p l h v = true ->
  exists t, 0 <= t <= h /\ in_limits l (fst p + t * fst v, snd p + t * snd v).
Proof. exact moving_sound. Qed.
Print Assumptions C66_moving_sound.

(* a stay of half a second is always noticed *)
Theorem C66_moving_dwell : forall p l h v t0, 0 < h -> 0 <= t0 -> t0 + 1 / 2 <= h ->
  (forall t, t0 <= t <= t0 + 1 / 2 -> in_limits l (fst p + t * fst v, snd p + t * snd v)) ->
  moving_point_in_rectangle p l h v = true.
Proof. exact moving_dwell. Qed.
Example C66_ex : moving_point_in_rectangle (0, 0) (1, -1, 3, 1) 10 (1, 0) = true.
Proof.
  apply (moving_dwell _ _ _ _ 2); try lra. intros t Ht. unfold in_limits; cbn [fst snd]; lra.
Qed.
Print Assumptions C66_moving_dwell.

(* a fast crossing can go unnoticed *)
Theorem C66_crossing_refuted : exists p l h v t, 0 <= t <= h /\ in_limits l (fst p + t * fst v, snd p + t * snd v) /\
    moving_point_in_rectangle p l h v = false.
Proof. exact moving_missed. Qed.
Print Assumptions C66_crossing_refuted.

(* discs: exactly when the open discs meet *)
Theorem C67_discs : forall r p r' q, 0 < r -> 0 < r' ->
  (overlaps_with (SCircle r) p (SCircle r') q = Some true <->
   exists x, dist p x < r /\ dist x q < r').
Proof. exact discs_overlap. Qed.
Example C67_ex : overlaps_with (SCircle 2) (0, 0) (SCircle 1) (2, 0) = Some true.
Proof.
  apply discs_overlap; try lra. exists (3 / 2, 0). rewrite !dist_horz.
  rewrite Rabs_left1, Rabs_left1 by lra. lra.
Qed.
Print Assumptions C67_discs.

Theorem C67_symmetric : forall s p o q, overlaps_with s p o q = overlaps_with o q s p.
Proof. exact overlaps_symmetric. Qed.
Print Assumptions C67_symmetric.

(* is_outside_of is false exactly when the whole obstacle is in the room *)
Theorem C67_circle_inside : forall r pos room rpos, 0 <= r ->
  (is_outside_of (SCircle r) pos room rpos = false <->
   forall x, dist pos x <= r -> in_room room rpos x).
Proof. exact circle_inside_iff. Qed.
Example C67_inside_ex : is_outside_of (SCircle 1) (1, 0) ((-2, 2), (-2, 2)) (0, 0) = false.
Proof.
  cbn [is_outside_of fst snd]. rewrite !orb_false_iff, !negb_false_iff, !in_interval_iff. lra.
Qed.
Print Assumptions C67_circle_inside.

Theorem C67_polygon_inside : forall s pos room rpos, (forall r, s <> SCircle r) ->
  (is_outside_of s pos room rpos = false <->
   forall x, hull (map (moved pos) (verts s)) x -> in_room room rpos x).
Proof. exact poly_inside_iff. Qed.
Print Assumptions C67_polygon_inside.

(* upright room: the constraints hold exactly when the whole vehicle is inside *)
Theorem C68_rectangular_room : forall chk rad position room rpos, 0 <= rad ->
  ((forall c e, In c chk -> In e (room_cons room rpos c position rad) -> e <= 0) <->
   (forall x, inflated (map (moved position) chk) rad x -> in_room room rpos x)).
Proof. exact room_rect_iff. Qed.
Example C68_ex : forall c e, In c square2 -> In e (room_cons ((-5, 5), (-5, 5)) (0, 0) c (3.5, 0) (1 / 2)) -> e <= 0.
Proof.
  intros c e Hc He. simpl in Hc.
  destruct Hc as [<- | [<- | [<- | [<- | []]]]]; cbn [room_cons fst snd In] in He;
    destruct He as [<- | [<- | [<- | [<- | []]]]]; lra.
Qed.
Print Assumptions C68_rectangular_room.

(* room given by a polygon: the whole vehicle is on the inner side of every wall *)
Theorem C68_polygonal_room : forall vs rpos chk rad position th off, cos (th / 2) <> 0 ->
  (forall p q, edge vs p q -> p <> q) ->
  (forall c h, In c chk -> In h (get_hyperplanes vs rpos) -> room_hyp_con h c rad position (tan (th / 2)) off <= 0) ->
  forall x, inflated (map (world position th off) chk) rad x ->
  forall p q, edge vs p q -> right_of (moved rpos p) (moved rpos q) x.
Proof. exact room_hyp_sound. Qed.
Print Assumptions C68_polygonal_room.

(* in space only the hull of the checkpoints is kept inside *)
Theorem C68_room_3d : forall lo hi rpos chk position,
  (forall c e, In c chk -> In e (room_cons3 lo hi rpos c position) -> e <= 0) ->
  forall x, hull3 (map (plus3 position) chk) x ->
  let '(x1, x2, x3) := x in let '(l1, l2, l3) := plus3 lo rpos in let '(h1, h2, h3) := plus3 hi rpos in
  l1 <= x1 <= h1 /\ l2 <= x2 <= h2 /\ l3 <= x3 <= h3.
Proof. exact room3_sound. Qed.
Print Assumptions C68_room_3d.

(* a sphere can stick out of the room: its radius is not in the constraint *)
Theorem C68_sphere_refuted : exists lo hi rpos position rad x,
  (forall e, In e (room_cons3 lo hi rpos (0, 0, 0) position) -> e <= 0) /\
  dist3 position x <= rad /\ fst (fst (plus3 hi rpos)) < fst (fst x).
Proof. exact sphere_sticks_out. Qed.
Print Assumptions C68_sphere_refuted.

(* Shape3D.rotate turns about x, then y, then z *)
Theorem C69_turns : forall roll pitch yaw v,
  rotate3 roll pitch yaw v = turn_z yaw (turn_y pitch (turn_x roll v)).
Proof. exact rotate3_turns. Qed.
Print Assumptions C69_turns.

(* and keeps all lengths and angles *)
Theorem C69_rigid : forall roll pitch yaw u v,
  inner3 (rotate3 roll pitch yaw u) (rotate3 roll pitch yaw v) = inner3 u v.
Proof. exact rotate3_inner. Qed.
Example C69_ex : rotate3 0 0 PI (1, 2, 3) = (-1, -2, 3).
Proof. rewrite rotate3_turns. unfold turn_x, turn_y, turn_z; cbn [fst snd]. rewrite cos_0, sin_0, cos_PI, sin_PI. apply f_equal2; [apply f_equal2 |]; ring. Qed.
Print Assumptions C69_rigid.
