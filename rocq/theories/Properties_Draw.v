(** Shapes, what is kept free for them and what is drawn (C143-C151). *)
From Coq Require Import Reals ZArith Lra Lia List.
From Verif Require Import Geom_Model Geom_Spec Geom_Proofs Geom_Proofs3 Draw_Model Draw_Spec Draw_Proofs3 Draw_Proofs4 Draw_Proofs5 Draw_Proofs6 Draw_Examples.
Import ListNotations.
Local Open Scope R_scope.

(* the body spanned by the checkpoints of a circle is the disc *)
Theorem C143_circle : forall r x, body (checkpoints2 (circle r)) x <-> dist (0, 0) x <= r.
Proof. exact disc_body. Qed.
Example C143_circle_ex : body (checkpoints2 (circle 5)) (3, 4).
Proof. apply C143_circle. apply dist_le_iff; [lra|]. unfold Rsqr. cbn [fst snd]. lra. Qed.
Print Assumptions C143_circle.

(* that of a rectangle: all points within a thousandth of the turned rectangle *)
Theorem C143_rectangle : forall w h th x, 0 <= w -> 0 <= h ->
  (body (checkpoints2 (rectangle w h th)) x <-> exists c, in_rect (0, 0) w h th c /\ dist c x <= thin).
Proof. exact rectangle_body. Qed.
Example C143_rectangle_ex : body (checkpoints2 (rectangle 2 1 (PI / 2))) (1 / 2, 1).
Proof.
  apply C143_rectangle; [lra|lra|]. exists (1 / 2, 1). split; [|rewrite dist_refl; unfold thin; lra].
  unfold in_rect. cbn [fst snd]. rewrite cos_PI2, sin_PI2. split; apply Rabs_le_iff; split; lra. Qed.
Print Assumptions C143_rectangle.

(* that of a beam: all points within half the height of the segment of length width; overall it is width + height long *)
Theorem C143_beam : forall w h th x, 0 <= w -> 0 <= h ->
  (body (checkpoints2 (beam w h th)) x <->
   exists t, Rabs t <= w / 2 /\ dist (t * cos th, t * sin th) x <= h / 2).
Proof. exact beam_body. Qed.
Example C143_beam_ex : body (checkpoints2 (beam 2 1 0)) (3 / 2, 0).
Proof.
  apply C143_beam; [lra|lra|]. exists 1. split; [apply Rabs_le_iff; split; lra|]. rewrite cos_0, sin_0.
  apply dist_le_iff; [lra|]. unfold Rsqr. cbn [fst snd]. lra. Qed.
Print Assumptions C143_beam.

(* that of a regular polyhedron: all points within a thousandth of the region between the n sides, turned *)
Theorem C144_regular : forall r n th x, 0 < r -> (3 <= n)%nat ->
  (body (checkpoints2 (regular r n th)) x <-> exists c, in_ngon r n c /\ dist (turned th c) x <= thin).
Proof. exact regular_body. Qed.
Example C144_regular_ex : body (checkpoints2 (regular 1 6 0)) (0, 0).
Proof.
  apply C144_regular; [lra|lia|]. exists (0, 0). split.
  - intros l _. cbn [fst snd]. assert (0 <= cos (PI / INR 6)).
    { pose proof PI_RGT_0. pose proof (pos_INR_nat_of_P 6) as Q. change (Pos.to_nat 6) with 6%nat in Q.
      apply cos_ge_0; unfold Rdiv; replace (INR 6) with 6 by (cbn; lra); lra. }
    lra.
  - replace (turned 0 (0, 0)) with (0, 0) by (unfold turned; cbn [fst snd]; f_equal; ring). rewrite dist_refl. unfold thin. lra. Qed.
Print Assumptions C144_regular.

(* the region lies between its inscribed and circumscribed circles *)
Theorem C144_circles : forall r n x, 0 < r -> (3 <= n)%nat ->
  (dist (0, 0) x <= r * cos (PI / INR n) -> in_ngon r n x) /\ (in_ngon r n x -> dist (0, 0) x <= r).
Proof. exact ngon_circles. Qed.
Example C144_circles_ex : ~ in_ngon 1 5 (1, 1).
Proof.
  intro H. apply (C144_circles 1 5 (1, 1) ltac:(lra) ltac:(lia)) in H. apply dist_le_iff in H; [|lra]. unfold Rsqr in H. cbn [fst snd] in H. lra. Qed.
Print Assumptions C144_circles.

(* solids: a sphere *)
Theorem C145_sphere : forall r x, body3 (checkpoints3 (sphere r)) x <-> dist3 (0, 0, 0) x <= r.
Proof. exact ball_body. Qed.
Example C145_sphere_ex : body3 (checkpoints3 (sphere 3)) (1, 2, 2).
Proof. apply C145_sphere. apply dist3_le_iff; [lra|]. unfold inner3, diff3. cbn [fst snd]. lra. Qed.
Print Assumptions C145_sphere.

(* a cuboid with roll, pitch and yaw *)
Theorem C145_cuboid : forall w d h o x, 0 <= w -> 0 <= d -> 0 <= h ->
  (body3 (checkpoints3 (cuboid w d h o)) x <->
   exists c, Rabs (fst (fst c)) <= w / 2 /\ Rabs (snd (fst c)) <= d / 2 /\ Rabs (snd c) <= h / 2 /\
             dist3 (turn3 o c) x <= thin).
Proof. exact cuboid_body. Qed.
Example C145_cuboid_ex : exists x, body3 (checkpoints3 (cuboid 2 4 6 (PI / 3, 1, 2))) x /\ x = turn3 (PI / 3, 1, 2) (1, -2, 3).
Proof.
  eexists. split; [|reflexivity]. apply C145_cuboid; [lra|lra|lra|]. exists (1, -2, 3). cbn [fst snd].
  split; [apply Rabs_le_iff; split; lra|]. split; [apply Rabs_le_iff; split; lra|]. split; [apply Rabs_le_iff; split; lra|].
  rewrite dist3_refl. unfold thin. lra. Qed.
Print Assumptions C145_cuboid.

(* a regular prism *)
Theorem C145_prism : forall r h n o x, 0 < r -> 0 <= h -> (3 <= n)%nat ->
  (body3 (checkpoints3 (prism r h n o)) x <->
   exists c, in_ngon r n (fst c) /\ Rabs (snd c) <= h / 2 /\ dist3 (turn3 o c) x <= thin).
Proof. exact prism_body. Qed.
Example C145_prism_ex : forall c, in_ngon 1 5 c -> body3 (checkpoints3 (prism 1 2 5 (0, 0, 0))) (turn3 (0, 0, 0) (c, 1)).
Proof.
  intros c C. apply C145_prism; [lra|lra|lia|]. exists (c, 1). cbn [fst snd]. split; [exact C|].
  split; [apply Rabs_le_iff; split; lra|]. rewrite dist3_refl. unfold thin. lra. Qed.
Print Assumptions C145_prism.

(* a plate: all points within half the height of the flat polygon *)
Theorem C145_plate : forall gs vs th r height o s x, plate (polyhedron gs vs th r) height o = Some s ->
  (body3 (checkpoints3 s) x <->
   exists c, hull vs c /\ dist3 (turn3 o (turned th c, 0)) x <= height / 2).
Proof. exact plate_body. Qed.
Example C145_plate_ex : exists s, plate (rectangle 2 2 0) 1 (0, 0, 0) = Some s /\ body3 (checkpoints3 s) (turn3 (0, 0, 0) (turned 0 (1, 1), 0)).
Proof.
  eexists. split; [reflexivity|]. eapply (C145_plate plain_surface (rectangle_base 2 2) 0 thin 1); [reflexivity|].
  exists (1, 1). split; [|rewrite dist3_refl; lra]. apply rectangle_hull; [lra|lra|]. cbn [fst snd]. split; apply Rabs_le_iff; split; lra. Qed.
Print Assumptions C145_plate.

(* the canvas limits of polyhedra are the smallest box around the hull of the vertices, whatever the orientation *)
Theorem C146_polyhedron : forall gs vs th r, vs <> [] ->
  tight_box (limits2 (polyhedron gs vs th r)) (hull (vertices2 (polyhedron gs vs th r))).
Proof. exact polygon_limits. Qed.
Example C146_polyhedron_ex : forall th x, hull (vertices2 (rectangle 2 1 th)) x -> fst x <= snd (fst (limits2 (rectangle 2 1 th))).
Proof. intros th x H. apply (C146_polyhedron plain_surface (rectangle_base 2 1) th thin ltac:(discriminate)). exact H. Qed.
Print Assumptions C146_polyhedron.

(* the limits of a circle *)
Theorem C146_circle : forall r, 0 <= r -> tight_box (limits2 (circle r)) (body (checkpoints2 (circle r))).
Proof. exact circle_limits. Qed.
Example C146_circle_ex : limits2 (circle 2) = ((-2, 2), (-2, 2)) /\ tight_box (limits2 (circle 2)) (body (checkpoints2 (circle 2))).
Proof. split; [reflexivity|apply C146_circle; lra]. Qed.
Print Assumptions C146_circle.

(* the limits of solids *)
Theorem C146_solid : forall vs ss o r, vs <> [] ->
  tight_box3 (limits3 (polyhedron3 vs ss o r)) (hull3 (vertices3 (polyhedron3 vs ss o r))).
Proof. exact solid_limits. Qed.
Example C146_solid_ex : forall o x, hull3 (vertices3 (cube 1 o)) x -> snd x <= snd (snd (limits3 (cube 1 o))).
Proof. intros o x H. apply (C146_solid (stacked (rectangle_base 1 1) 1) (prism_surfaces 4 (stacked (rectangle_base 1 1) 1)) o thin ltac:(discriminate)) in H. apply H. Qed.
Print Assumptions C146_solid.

(* the limits of a sphere *)
Theorem C146_sphere : forall r, 0 <= r -> tight_box3 (limits3 (sphere r)) (body3 (checkpoints3 (sphere r))).
Proof. exact sphere_limits. Qed.
Example C146_sphere_ex : tight_box3 (limits3 (sphere 2)) (body3 (checkpoints3 (sphere 2))).
Proof. apply C146_sphere. lra. Qed.
Print Assumptions C146_sphere.

(* what is drawn of a plane shape lies in the body spanned by its checkpoints, placed the same way *)
Theorem C147_drawn : forall s p th x, made s -> shown (draw2 s (p, th)) x ->
  exists y, body (checkpoints2 s) y /\ x = placed p th y.
Proof. exact drawn_in_body. Qed.
Example C147_drawn_ex : exists x, shown (draw2 (circle 1) ((3, 0), PI)) x /\ dist (3, 0) x <= 1.
Proof.
  assert (S1 : exists x, shown (draw2 (circle 1) ((3, 0), PI)) x).
  { exists (shift (3, 0) (rotate PI (nth 0 (circle_outline 1) (0, 0)))).
    eexists. split; [left; reflexivity|]. apply hull_vertex. left. reflexivity. }
  destruct S1 as (x & X). exists x. split; [exact X|]. apply (shown_circle 1 (3, 0) PI x); [lra|exact X]. Qed.
Print Assumptions C147_drawn.

(* the drawing of a rectangle covers exactly the rectangle in its place *)
Theorem C147_rectangle : forall w h th p phi x, 0 <= w -> 0 <= h ->
  (shown (draw2 (rectangle w h th) (p, phi)) x <-> in_rect p w h (th + phi) x).
Proof. exact drawn_rectangle. Qed.
Example C147_rectangle_ex : shown (draw2 (rectangle 4 2 0) ((10, 10), PI / 2)) (9, 12).
Proof.
  apply C147_rectangle; [lra|lra|]. unfold in_rect. rewrite Rplus_0_l, cos_PI2, sin_PI2. cbn [fst snd]. split; apply Rabs_le_iff; split; lra. Qed.
Print Assumptions C147_rectangle.

(* the same for solids *)
Theorem C147_solid : forall s p o x, made3 s -> shown3 (draw3 s (p, o)) x ->
  exists y, body3 (checkpoints3 s) y /\ x = placed3 p o y.
Proof. exact drawn_in_body3. Qed.
Example C147_solid_ex : exists x, shown3 (draw3 (sphere 1) ((0, 0, 3), (0, 0, 0))) x /\
  exists y, body3 (checkpoints3 (sphere 1)) y /\ x = placed3 (0, 0, 3) (0, 0, 0) y.
Proof.
  exists (add3 (0, 0, 3) (rot3 (0, 0, 0) (sphere_pnt 1 0 0))).
  assert (S1 : shown3 (draw3 (sphere 1) ((0, 0, 3), (0, 0, 0))) (add3 (0, 0, 3) (rot3 (0, 0, 0) (sphere_pnt 1 0 0)))).
  { eexists. split; [left; reflexivity|]. apply hull3_vertex. left. reflexivity. }
  split; [exact S1|]. apply C147_solid; [constructor; lra|exact S1]. Qed.
Print Assumptions C147_solid.

(* a plate made of a beam is drawn beyond what is kept free for it *)
Theorem C147_plate_refuted : exists s x, plate (beam 1 1 0) (1 / 10) (0, 0, 0) = Some s /\
  shown3 (draw3 s ((0, 0, 0), (0, 0, 0))) x /\ ~ exists y, body3 (checkpoints3 s) y /\ x = placed3 (0, 0, 0) (0, 0, 0) y.
Proof. exact plate_beam. Qed.
Print Assumptions C147_plate_refuted.

(* when the constraints hold, every drawn point of a vehicle (Holonomic: heading 0) is at least the remaining safety distance away from every drawn point of every obstacle *)
Theorem C148_holonomic : forall id s os hy sd position th cons, made s -> (forall o, In o os -> made (fst o)) ->
  holonomic_problem [(id, s)] os hy sd position (tan (th / 2)) = Some cons -> cos (th / 2) <> 0 ->
  (forall e, In e cons -> e <= 0) ->
  forall l o pos phi x y, nth_error os l = Some (o, (pos, phi)) ->
  shown (draw_vehicle2 [s] (position, th)) x -> shown (draw2 o (pos, phi)) y ->
  sd - h_eps (hy 0%nat l) <= dist x y.
Proof. exact holonomic_safe. Qed.
Example C148_holonomic_ex : forall x y, shown (draw_vehicle2 [square 1 0] ((0, 0), 0)) x -> shown (draw2 (circle (1 / 2)) ((2, 0), 0)) y -> 1 / 4 <= dist x y.
Proof.
  intros x y X Y. destruct cons0 as (cons & E & H).
  pose proof (C148_holonomic 7%nat (square 1 0) os0 hy0 (1 / 4) (0, 0) 0 cons (made_square 1 0) made_os0 E turn0 H 0%nat _ _ _ x y eq_refl X Y) as K.
  cbn [hy0 h_eps] in K. lra. Qed.
Print Assumptions C148_holonomic.

(* the same for a Dubins vehicle with its wheels and front *)
Theorem C148_dubins : forall id s os hy sd position th cons, made s -> (forall o, In o os -> made (fst o)) ->
  dubins_problem [(id, s)] os hy sd position (tan (th / 2)) = Some cons -> cos (th / 2) <> 0 ->
  (forall e, In e cons -> e <= 0) ->
  forall l o pos phi x y, nth_error os l = Some (o, (pos, phi)) ->
  shown (draw_dubins [s] (position, th)) x -> shown (draw2 o (pos, phi)) y ->
  sd - h_eps (hy 0%nat l) <= dist x y.
Proof. exact dubins_safe. Qed.
Example C148_dubins_ex : forall x y, shown (draw_dubins [circle (1 / 2)] ((0, 0), 0)) x -> shown (draw2 (circle (1 / 2)) ((2, 0), 0)) y -> 1 / 4 <= dist x y.
Proof.
  intros x y X Y. destruct dcons0 as (cons & E & H).
  pose proof (C148_dubins 7%nat (circle (1 / 2)) os0 hy0 (1 / 4) (0, 0) 0 cons (made_circle (1 / 2) ltac:(lra)) made_os0 E turn0 H 0%nat _ _ _ x y eq_refl X Y) as K.
  cbn [hy0 h_eps] in K. lra. Qed.
Print Assumptions C148_dubins.

(* the same in space *)
Theorem C148_solid : forall s os hy sd position, made3 s -> (forall o, In o os -> made3 (fst o)) ->
  (forall e, In e (solid_problem s os hy sd position) -> e <= 0) ->
  forall l o pos x y, nth_error os l = Some (o, pos) ->
  shown3 (draw_vehicle3 [s] (pose_holonomic3 position)) x -> shown3 (draw_obstacle3 true o pos) y ->
  sd - h3_eps (hy l) <= dist3 x y.
Proof. exact solid_safe. Qed.
Example C148_solid_ex : forall x y, shown3 (draw_vehicle3 [sphere (1 / 2)] (pose_holonomic3 (0, 0, 0))) x -> shown3 (draw_obstacle3 true (sphere (1 / 2)) (0, 0, 2)) y -> 1 / 4 <= dist3 x y.
Proof.
  intros x y X Y.
  pose proof (C148_solid (sphere (1 / 2)) os3 hy3 (1 / 4) (0, 0, 0) (made_sphere (1 / 2) ltac:(lra)) made_os3 scons0 0%nat _ _ x y eq_refl X Y) as K.
  cbn [hy3 h3_eps] in K. lra. Qed.
Print Assumptions C148_solid.

(* wheels and front of a Dubins vehicle lie in its disc *)
Theorem C149_dubins : forall r p th x, 0 <= r -> shown (draw_dubins_shape (p, th) (circle r)) x -> dist p x <= r.
Proof. exact dubins_disc_drawn. Qed.
Example C149_dubins_ex : shown (draw_dubins_shape ((0, 0), 0) (circle 1)) (0, 0 + 1 / 2 * sin (0 + PI / 2)).
Proof.
  unfold draw_dubins_shape. cbn [circle family2 radius2 fst snd]. apply shown_app_r, shown_app_r, shown_app_l.
  apply drawn_rectangle; [lra|lra|]. unfold ahead, in_rect. cbn [fst snd]. rewrite !Rplus_0_l, cos_PI2, sin_PI2, cos_0, sin_0.
  split; apply Rabs_le_iff; split; lra. Qed.
Print Assumptions C149_dubins.

(* a bicycle is drawn within 0.6 of its length around its position *)
Theorem C149_bicycle : forall k len p th delta x, 0 <= len ->
  shown (draw_bicycle k len (p, th) delta) x -> dist p x <= 6 / 10 * len.
Proof. exact bicycle_drawn. Qed.
Example C149_bicycle_ex : shown (draw_bicycle LCar 1 ((0, 0), 0) 0) (1 / 2, 1 / 8) /\ dist (0, 0) (1 / 2, 1 / 8) <= 6 / 10 * 1.
Proof.
  assert (B := bicycle_corner LCar 1 0 (or_introl eq_refl) ltac:(lra)). split; [exact B|]. apply (C149_bicycle LCar 1 (0, 0) 0 0); [lra|exact B]. Qed.
Print Assumptions C149_bicycle.

(* but not within the disc that is kept free for it *)
Theorem C149_bicycle_outside_refuted : forall k len delta, k = LCar \/ k = LBicycle -> 0 < len ->
  exists x, shown (draw_bicycle k len ((0, 0), 0) delta) x /\ len / 2 < dist (0, 0) x.
Proof. exact bicycle_outside. Qed.
Print Assumptions C149_bicycle_outside_refuted.

(* so that it can be drawn over an obstacle although all constraints hold with a positive margin *)
Theorem C149_bicycle_hits_refuted : exists os hy sd cons x, (forall o, In o os -> made (fst o)) /\
  dubins_problem [(0%nat, bicycle_shape 1)] os hy sd (0, 0) (tan (0 / 2)) = Some cons /\
  (forall e, In e cons -> e <= 0) /\ h_eps (hy 0%nat 0%nat) < sd /\
  shown (draw_bicycle LCar 1 ((0, 0), 0) 0) x /\
  exists o pos phi, nth_error os 0 = Some (o, (pos, phi)) /\ shown (draw2 o (pos, phi)) x.
Proof. exact bicycle_hits. Qed.
Print Assumptions C149_bicycle_hits_refuted.

(* an AGV that is not longer than 0.8 is drawn within the rectangle that is kept free *)
Theorem C149_agv : forall len p th delta x, 0 <= len <= 8 / 10 ->
  shown (draw_agv LAgv len (p, th) delta) x -> exists y, body (checkpoints2 agv_shape) y /\ x = placed p th y.
Proof. exact agv_drawn. Qed.
Example C149_agv_ex : forall delta x, shown (draw_agv LAgv (4 / 10) ((1, 2), PI / 3) delta) x ->
  exists y, body (checkpoints2 agv_shape) y /\ x = placed (1, 2) (PI / 3) y.
Proof. intros delta x. apply C149_agv. lra. Qed.
Print Assumptions C149_agv.

(* a longer one is not: the rectangle does not depend on the length *)
Theorem C149_agv_long_refuted : forall k len delta, k = LCar \/ k = LAgv -> 802 / 1000 < len ->
  exists x, shown (draw_agv k len ((0, 0), 0) delta) x /\
    ~ exists y, body (checkpoints2 agv_shape) y /\ x = placed (0, 0) 0 y.
Proof. exact agv_long. Qed.
Print Assumptions C149_agv_long_refuted.

(* nor is one of the default length drawn as a car with steered wheels *)
Theorem C149_agv_steered_refuted : exists delta x, shown (draw_agv LCar (4 / 10) ((0, 0), 0) delta) x /\
    ~ exists y, body (checkpoints2 agv_shape) y /\ x = placed (0, 0) 0 y.
Proof. exact agv_steered. Qed.
Print Assumptions C149_agv_steered_refuted.

(* a quadrotor is drawn up to sqrt(1.04) times its radius away from its position *)
Theorem C149_quadrotor : forall r p th, 0 < r ->
  (forall x, shown (draw_quadrotor r (p, th)) x -> dist p x <= sqrt (104 / 100) * r) /\
  (exists x, shown (draw_quadrotor r (p, th)) x /\ dist p x = sqrt (104 / 100) * r).
Proof. exact quadrotor_drawn. Qed.
Example C149_quadrotor_ex : exists x, shown (draw_quadrotor 1 ((0, 0), 0)) x /\ 1 < dist (0, 0) x.
Proof.
  destruct (C149_quadrotor 1 (0, 0) 0 ltac:(lra)) as (_ & x & X & E). exists x. split; [exact X|]. rewrite E, Rmult_1_r, <- sqrt_1.
  apply sqrt_lt_1_alt. lra. Qed.
Print Assumptions C149_quadrotor.

(* the same in space *)
Theorem C149_quadrotor3 : forall r p phi theta, 0 < r ->
  (forall x, shown3 (draw_quadrotor3 r (pose_quadrotor3 p phi theta)) x -> dist3 p x <= sqrt (104 / 100) * r) /\
  (exists x, shown3 (draw_quadrotor3 r (pose_quadrotor3 p phi theta)) x /\ dist3 p x = sqrt (104 / 100) * r).
Proof. exact quadrotor3_drawn. Qed.
Example C149_quadrotor3_ex : exists x, shown3 (draw_quadrotor3 1 (pose_quadrotor3 (0, 0, 0) 1 2)) x /\ 1 < dist3 (0, 0, 0) x.
Proof.
  destruct (C149_quadrotor3 1 (0, 0, 0) 1 2 ltac:(lra)) as (_ & x & X & E). exists x. split; [exact X|]. rewrite E, Rmult_1_r, <- sqrt_1.
  apply sqrt_lt_1_alt. lra. Qed.
Print Assumptions C149_quadrotor3.

(* the drawn shape of a trailer keeps its distance from the drawn obstacles *)
Theorem C150_trailer : forall id s lead os hy sd sd_lead l_hitch position th_tr tg_veh cons,
  made s -> (forall o, In o os -> made (fst o)) ->
  trailer_problem [(id, s)] lead os hy sd sd_lead l_hitch position (tan (th_tr / 2)) tg_veh = Some cons ->
  cos (th_tr / 2) <> 0 -> (forall e, In e cons -> e <= 0) ->
  forall l o pos phi x y, nth_error os l = Some (o, (pos, phi)) ->
  shown (draw2 s (ahead position (- l_hitch) th_tr, th_tr)) x -> shown (draw2 o (pos, phi)) y ->
  sd - h_eps (hy 0%nat l) <= dist x y.
Proof. exact trailer_safe. Qed.
Example C150_trailer_ex : forall x y, shown (draw2 (circle (1 / 2)) (ahead (0, 0) (- (1)) 0, 0)) x -> shown (draw2 (circle (1 / 2)) ((2, 0), 0)) y -> 1 / 4 <= dist x y.
Proof.
  intros x y X Y. destruct tcons0 as (cons & E & H).
  pose proof (C150_trailer 7%nat (circle (1 / 2)) _ os0 hy0 (1 / 4) (1 / 4) 1 (0, 0) 0 0 cons (made_circle (1 / 2) ltac:(lra)) made_os0 E turn0 H 0%nat _ _ _ x y eq_refl X Y) as K.
  cbn [hy0 h_eps] in K. lra. Qed.
Print Assumptions C150_trailer.

(* the constraints do not depend on the shape or heading of the vehicle in front: it has none *)
Theorem C150_unseen : forall shapes lid ls os hy sd sd_lead l_hitch position tg_tr tg_veh,
  (forall s, In s shapes -> fst s <> lid) ->
  trailer_problem shapes [(lid, ls)] os hy sd sd_lead l_hitch position tg_tr tg_veh =
  both (Some (obstacle_cons (length shapes) os hy))
       (vehicle_cons shapes (env_hyps shapes (length os) hy) sd position tg_tr (- l_hitch)).
Proof. exact lead_unseen. Qed.
Example C150_unseen_ex : trailer_problem [(7%nat, circle 1)] [(8%nat, circle 1)] os0 hy0 0 0 1 (0, 0) 0 0 =
  trailer_problem [(7%nat, circle 1)] [(8%nat, circle 100)] os0 hy0 0 0 1 (0, 0) 0 1.
Proof. rewrite !C150_unseen; [reflexivity|intros s [<-|[]]; discriminate|intros s [<-|[]]; discriminate]. Qed.
Print Assumptions C150_unseen.

(* so the vehicle in front can be drawn over an obstacle although all constraints hold with a positive margin *)
Theorem C150_lead_refuted : exists os hy sd cons x,
  trailer_problem [(0%nat, circle (1 / 4))] [(1%nat, circle (1 / 4))] os hy sd sd 1 (0, 0) (tan (0 / 2)) (tan (0 / 2)) = Some cons /\
  (forall e, In e cons -> e <= 0) /\ h_eps (hy 0%nat 0%nat) < sd /\
  shown (draw_dubins [circle (1 / 4)] ((0, 0), 0)) x /\
  exists o pos phi, nth_error os 0 = Some (o, (pos, phi)) /\ shown (draw2 o (pos, phi)) x.
Proof. exact lead_hits. Qed.
Print Assumptions C150_lead_refuted.

(* a vehicle that does not turn is drawn within its upright rectangular room *)
Theorem C151_room : forall w h rpos s position, 0 <= w -> 0 <= h -> made s ->
  (forall e, In e (room_problem (mkRoom2 (rectangle w h 0) rpos 0 true) s position) -> e <= 0) ->
  forall x, shown (draw_vehicle2 [s] (pose_holonomic position)) x ->
  shown (draw2 (rectangle w h 0) (rpos, 0)) x.
Proof. exact in_room_drawn. Qed.
Example C151_room_ex : forall x, shown (draw_vehicle2 [circle (1 / 2)] (pose_holonomic (1, 0))) x -> shown (draw2 (rectangle 4 2 0) ((0, 0), 0)) x.
Proof. apply C151_room; [lra|lra|constructor; lra|exact rcons0]. Qed.
Print Assumptions C151_room.

(* the orientation of a room is drawn, but not in the constraints *)
Theorem C151_turned_refuted : exists q s position x, r_orient q <> 0 /\ made s /\
  (exists w h, 0 <= w /\ 0 <= h /\ r_shape q = rectangle w h 0) /\
  (forall e, In e (room_problem q s position) -> e <= 0) /\
  shown (draw_vehicle2 [s] (pose_holonomic position)) x /\
  ~ shown (draw2 (r_shape q) (r_pos q, r_orient q)) x.
Proof. exact turned_room. Qed.
Print Assumptions C151_turned_refuted.

(* the environment is drawn if and only if all obstacles are; otherwise drawing raises *)
Theorem C151_environment : forall rooms os,
  ((exists t, draw_environment2 rooms os = Some t) <-> (forall o, In o os -> o_shown o = true)) /\
  (forall t, draw_environment2 rooms os = Some t -> forall x, shown t x <->
     (exists q, In q rooms /\ r_draw q = true /\ shown (draw2 (r_shape q) (r_pos q, r_orient q)) x) \/
     (exists o, In o os /\ shown (draw2 (o_shape o) (o_pos o, o_orient o)) x)).
Proof. exact environment_drawn. Qed.
Example C151_environment_ex : draw_environment2 [] [mkObst2 false (circle 1) (0, 0) 0] = None.
Proof. reflexivity. Qed.
Print Assumptions C151_environment.

(* a vehicle with more than one shape cannot be used: its constraints raise *)
Theorem C151_shapes : forall s1 s2 rest os hy sd position tg,
  dubins_problem (s1 :: s2 :: rest) os hy sd position tg = None /\
  holonomic_problem (s1 :: s2 :: rest) os hy sd position tg = None.
Proof. exact several_shapes. Qed.
Example C151_shapes_ex : dubins_problem [(1%nat, circle 1); (2%nat, circle 1)] [] hy0 0 (0, 0) 0 = None.
Proof. apply C151_shapes. Qed.
Print Assumptions C151_shapes.
