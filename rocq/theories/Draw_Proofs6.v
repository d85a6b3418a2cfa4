(* Drawings of particular vehicles; what is not kept apart. *)
Require Import Reals List Lra Lia Psatz ZArith.
From Verif Require Import Geom_Model Geom_Spec Geom_Proofs Geom_Proofs2 Geom_Proofs3 Geom_Proofs4.
From Verif Require Import Angle_Model Angle_Proofs Draw_Model Draw_Spec Draw_Proofs Draw_Proofs2 Draw_Proofs3 Draw_Proofs4 Draw_Proofs5.
Import ListNotations.
Open Scope R_scope.

(* ---------- bicycle ---------- *)
Lemma wheel_far : forall w h p q phi x d e, 0 <= w -> 0 <= h -> 0 <= e -> w * w + h * h <= 4 * (e * e) ->
  dist p q <= d -> shown (draw2 (rectangle w h 0) (q, phi)) x -> dist p x <= d + e.
Proof.
  intros w h p q phi x d e W P E L D H. apply (shown_rectangle _ _ _ _ _ e W P E L) in H.
  pose proof (dist_triangle p q x). lra.
Qed.
Lemma ahead_far : forall p d th, 0 <= d -> dist p (ahead p d th) <= d /\ dist p (ahead p (- d) th) <= d.
Proof. intros p d th D. rewrite !dist_ahead, Rabs_Ropp, Rabs_right by lra. split; lra. Qed.
Theorem bicycle_drawn : forall k len p th delta x, 0 <= len ->
  shown (draw_bicycle k len (p, th) delta) x -> dist p x <= 6 / 10 * len.
Proof.
  intros k len p th delta x P H.
  assert (B : forall x, shown (draw2 (rectangle len (len / 4) 0) (p, th)) x -> dist p x <= 6 / 10 * len).
  { intros z Z. eapply (shown_rectangle len (len / 4)); [| | | |exact Z]; nra. }
  destruct k; cbn [draw_bicycle fst snd] in H; [| |destruct H as (? & [] & _)|destruct H as (? & [] & _)].
  - unfold draw_car in H. cbn [fst snd] in H.
    assert (D : len / (25 / 10) = 4 / 10 * len) by (unfold Rdiv; lra). rewrite D in H.
    assert (W : forall q phi z, dist p q <= 4 / 10 * len -> shown (draw2 (rectangle (len / 8) (len / 10) 0) (q, phi)) z -> dist p z <= 6 / 10 * len).
    { intros q phi z Q Z. apply (wheel_far _ _ p q phi z (4 / 10 * len) (1 / 10 * len)) in Z; nra. }
    apply shown_app in H. destruct H as [H|H]; [exact (B x H)|].
    pose proof (ahead_far p (4 / 10 * len) (th + deg30) ltac:(lra)) as (A1 & A2).
    pose proof (ahead_far p (4 / 10 * len) (th - deg30) ltac:(lra)) as (A3 & A4).
    apply shown_app in H. destruct H as [H|H]; [eapply W; [|exact H]; assumption|].
    apply shown_app in H. destruct H as [H|H]; [eapply W; [|exact H]; assumption|].
    apply shown_app in H. destruct H as [H|H]; [eapply W; [|exact H]; assumption|].
    eapply W; [|exact H]; assumption.
  - unfold draw_two in H. cbn [fst snd] in H.
    assert (W : forall q phi z, dist p q <= len / 3 -> shown (draw2 (rectangle (len / 2) (len / 6) 0) (q, phi)) z -> dist p z <= 6 / 10 * len).
    { intros q phi z Q Z. apply (wheel_far _ _ p q phi z (len / 3) (266 / 1000 * len)) in Z; nra. }
    apply shown_app in H. destruct H as [H|H]; [exact (B x H)|].
    pose proof (ahead_far p (len / 3) th ltac:(lra)) as (A1 & A2).
    apply shown_app in H. destruct H as [H|H]; [eapply W; [|exact H]; assumption|].
    eapply W; [|exact H]; assumption.
Qed.
Lemma bicycle_corner : forall k len delta, k = LCar \/ k = LBicycle -> 0 < len ->
  shown (draw_bicycle k len ((0, 0), 0) delta) (len / 2, len / 8).
Proof.
  intros k len delta K P.
  assert (B : shown (draw2 (rectangle len (len / 4) 0) ((0, 0), 0)) (len / 2, len / 8)).
  { apply drawn_rectangle; [lra|lra|]. unfold in_rect. cbn [fst snd]. rewrite Rplus_0_l, cos_0, sin_0.
    split; apply Rabs_le_iff; split; lra. }
  destruct K as [-> | ->]; apply shown_app_l; exact B.
Qed.
Theorem bicycle_outside : forall k len delta, k = LCar \/ k = LBicycle -> 0 < len ->
  exists x, shown (draw_bicycle k len ((0, 0), 0) delta) x /\ len / 2 < dist (0, 0) x.
Proof.
  intros k len delta K P. exists (len / 2, len / 8). split; [apply bicycle_corner; assumption|].
  apply Rnot_le_lt. intro C. apply dist_le_iff in C; [|lra]. cbn [fst snd] in C. unfold Rsqr in C. nra.
Qed.

(* all constraints hold, the body is drawn over the obstacle *)
Definition over_obstacle : shape2 := polyhedron plain_surface [(1 / 2, 1 / 8); (2, 0); (2, 2)] 0 0.
Theorem bicycle_hits : exists os hy sd cons x, (forall o, In o os -> made (fst o)) /\
  dubins_problem [(0%nat, bicycle_shape 1)] os hy sd (0, 0) (tan (0 / 2)) = Some cons /\
  (forall e, In e cons -> e <= 0) /\ h_eps (hy 0%nat 0%nat) < sd /\
  shown (draw_bicycle LCar 1 ((0, 0), 0) 0) x /\
  exists o pos phi, nth_error os 0 = Some (o, (pos, phi)) /\ shown (draw2 o (pos, phi)) x.
Proof.
  exists [(over_obstacle, ((0, 0), 0))], (fun _ _ => mkHyp (24 / 25, 7 / 25) (51 / 100) 0), (1 / 100).
  eexists. exists (1 / 2, 1 / 8). split; [|split; [reflexivity|split; [|split; [|split]]]].
  - intros o [<-|[]]. cbn [fst]. apply made_polyhedron. lra.
  - intros e I. cbn in I. unfold norm_con, veh_con, obs_con, rotate in I. cbn [fst snd h_a h_b h_eps] in I. rewrite cos_0, sin_0 in I.
    repeat (destruct I as [<-|I]; [cbn [fst snd]; lra|]). destruct I.
  - cbn [h_eps]. lra.
  - replace (1 / 8) with (1 / 8) by reflexivity. pose proof (bicycle_corner LCar 1 0 (or_introl eq_refl) ltac:(lra)) as B. exact B.
  - exists over_obstacle, (0, 0), 0. split; [reflexivity|]. apply drawn_plain. exists (1 / 2, 1 / 8).
    split; [apply hull_vertex; left; reflexivity|]. unfold placed, moved, turned. cbn [fst snd]. rewrite cos_0, sin_0. f_equal; ring.
Qed.

(* ---------- AGV ---------- *)
Lemma agv_body : forall p th x, in_rect p (8 / 10) (2 / 10) th x ->
  exists y, body (checkpoints2 agv_shape) y /\ x = placed p th y.
Proof.
  intros p th x H. assert (K : shown (draw2 agv_shape (p, th)) x).
  { apply drawn_rectangle; [lra|lra|]. rewrite Rplus_0_l. exact H. }
  apply drawn_in_body in K; [exact K|]. apply made_rectangle.
Qed.
(* a small rectangle, whatever its heading, lies in a larger one around a point of its axis *)
Lemma wheel_in : forall w h p d th phi x W H e, 0 <= w -> 0 <= h -> 0 <= e -> w * w + h * h <= 4 * (e * e) ->
  Rabs d + e <= W / 2 -> e <= H / 2 ->
  shown (draw2 (rectangle w h 0) (ahead p d th, phi)) x -> in_rect p W H th x.
Proof.
  intros w h p d th phi x W H e HW HH HE L A B S. apply (shown_rectangle _ _ _ _ _ e HW HH HE L) in S.
  apply dist_le_iff in S; [|exact HE]. unfold ahead in S. cbn [fst snd] in S. unfold Rsqr in S.
  set (c := cos th) in *. set (s := sin th) in *. assert (C : c * c + s * s = 1) by (apply cs2).
  set (u := fst x - fst p) in *. set (v := snd x - snd p) in *.
  assert (E : (c * u + s * v - d) * (c * u + s * v - d) + (- s * u + c * v) * (- s * u + c * v) <= e * e).
  { replace ((fst p + d * c - fst x) * (fst p + d * c - fst x) + (snd p + d * s - snd x) * (snd p + d * s - snd x))
      with (u * u + v * v - 2 * d * (c * u + s * v) + d * d * (c * c + s * s)) in S by (unfold u, v; ring).
    replace ((c * u + s * v - d) * (c * u + s * v - d) + (- s * u + c * v) * (- s * u + c * v))
      with ((c * c + s * s) * (u * u + v * v) - 2 * d * (c * u + s * v) + d * d) by ring.
    rewrite C in *. lra. }
  assert (D : - Rabs d <= d <= Rabs d) by (apply Rabs_le_iff; lra).
  assert (Q : forall z, z * z <= e * e -> - e <= z <= e) by (intros z Z; split; nra).
  unfold in_rect. fold u v c s. set (f := c * u + s * v) in *. set (g := - s * u + c * v) in *.
  pose proof (Rle_0_sqr (f - d)) as F1. pose proof (Rle_0_sqr g) as F2. unfold Rsqr in F1, F2.
  pose proof (Q (f - d) ltac:(lra)). pose proof (Q g ltac:(lra)). split; apply Rabs_le_iff; split; lra.
Qed.
Theorem agv_drawn : forall len p th delta x, 0 <= len <= 8 / 10 ->
  shown (draw_agv LAgv len (p, th) delta) x -> exists y, body (checkpoints2 agv_shape) y /\ x = placed p th y.
Proof.
  intros len p th delta x P H. apply agv_body. cbn [draw_agv fst snd] in H. unfold draw_two in H. cbn [fst snd] in H.
  apply shown_app in H. destruct H as [H|H].
  - apply drawn_rectangle in H; [|lra|lra]. rewrite Rplus_0_l in H. destruct H as (A & B).
    unfold in_rect. split; [eapply Rle_trans; [exact A|lra]|eapply Rle_trans; [exact B|lra]].
  - assert (Q : Rabs (len / 3) = len / 3) by (apply Rabs_right; lra).
    apply shown_app in H. destruct H as [H|H].
    + apply (wheel_in _ _ _ _ _ _ _ (8 / 10) (2 / 10) (len / 16)) in H; [exact H|lra|lra|lra|nra|lra|lra].
    + apply (wheel_in _ _ _ _ _ _ _ (8 / 10) (2 / 10) (len / 16)) in H; [exact H|lra|lra|lra|nra|rewrite Rabs_Ropp; lra|lra].
Qed.
Lemma agv_body_bounds : forall y, body (checkpoints2 agv_shape) y ->
  Rabs (fst y) <= 401 / 1000 /\ Rabs (snd y) <= 101 / 1000.
Proof.
  intros y Y. apply rectangle_body in Y; [|lra|lra]. destruct Y as (c & (A & B) & D). rewrite cos_0, sin_0 in A, B. cbn [fst snd] in A, B.
  apply Rabs_le_iff in A. apply Rabs_le_iff in B. apply dist_le_iff in D; [|apply thin_pos]. unfold thin, Rsqr in D.
  assert (Q : forall z, z * z <= 1 / 1000 * (1 / 1000) -> - (1 / 1000) <= z <= 1 / 1000) by (intros z Z; split; nra).
  pose proof (Rle_0_sqr (fst c - fst y)) as F1. pose proof (Rle_0_sqr (snd c - snd y)) as F2. unfold Rsqr in F1, F2.
  pose proof (Q (fst c - fst y) ltac:(lra)). pose proof (Q (snd c - snd y) ltac:(lra)). split; apply Rabs_le_iff; split; lra.
Qed.
Lemma placed_0 : forall y, placed (0, 0) 0 y = y.
Proof. intros (a & b). unfold placed, moved, turned. cbn [fst snd]. rewrite cos_0, sin_0. f_equal; ring. Qed.
Theorem agv_long : forall k len delta, k = LCar \/ k = LAgv -> 802 / 1000 < len ->
  exists x, shown (draw_agv k len ((0, 0), 0) delta) x /\
    ~ exists y, body (checkpoints2 agv_shape) y /\ x = placed (0, 0) 0 y.
Proof.
  intros k len delta K P. exists (len / 2, 0). split.
  - assert (B : shown (draw2 (rectangle len (len / 4) 0) ((0, 0), 0)) (len / 2, 0)).
    { apply drawn_rectangle; [lra|lra|]. unfold in_rect. cbn [fst snd]. rewrite Rplus_0_l, cos_0, sin_0.
      split; apply Rabs_le_iff; split; lra. }
    destruct K as [-> | ->]; apply shown_app_l; exact B.
  - intros (y & Y & E). rewrite placed_0 in E. subst y. apply agv_body_bounds in Y. cbn [fst snd] in Y. destruct Y as (Y & _).
    apply Rabs_le_iff in Y. lra.
Qed.
(* the default length with the other look: a steered wheel sticks out *)
Theorem agv_steered : exists delta x, shown (draw_agv LCar (4 / 10) ((0, 0), 0) delta) x /\
    ~ exists y, body (checkpoints2 agv_shape) y /\ x = placed (0, 0) 0 y.
Proof.
  set (q := ahead (0, 0) (- (4 / 10 / (25 / 10))) (0 + deg30)).
  exists (PI / 2), (fst q, snd q - 25 / 1000). split.
  - cbn [draw_agv fst snd]. unfold draw_car. cbn [fst snd]. apply shown_app_r, shown_app_r, shown_app_r, shown_app_l.
    fold q. apply drawn_rectangle; [lra|lra|]. unfold in_rect. cbn [fst snd].
    replace (0 + (0 + PI / 2)) with (PI / 2) by ring. rewrite cos_PI2, sin_PI2. split; apply Rabs_le_iff; split; lra.
  - intros (y & Y & E). rewrite placed_0 in E. subst y. apply agv_body_bounds in Y. cbn [fst snd] in Y. destruct Y as (_ & Y).
    apply Rabs_le_iff in Y. unfold q, ahead, deg30 in Y. cbn [fst snd] in Y.
    replace (0 + 30 * PI / 180) with (PI / 6) in Y by field. rewrite sin_PI6 in Y. lra.
Qed.

(* ---------- quadrotors ---------- *)
Lemma hull_dist : forall vs c d x, 0 <= d -> (forall v, In v vs -> dist c v <= d) -> hull vs x -> dist c x <= d.
Proof.
  intros vs c d x D H X. induction X as [v V | s p q S P IP Q IQ]; [auto|].
  replace c with (between s c c) by (destruct c; unfold between; cbn [fst snd]; f_equal; ring). apply dist_mix; assumption.
Qed.
Lemma hull3_dist : forall vs c d x, 0 <= d -> (forall v, In v vs -> dist3 c v <= d) -> hull3 vs x -> dist3 c x <= d.
Proof.
  intros vs c d x D H X. induction X as [v V | s p q S P IP Q IQ]; [auto|].
  replace c with (between3 s c c) by (destruct c as ((? & ?) & ?); unfold between3; cbn [fst snd]; f_equal; [f_equal|]; ring).
  apply (dist3_mix s c c p q d); assumption.
Qed.
Lemma quadrotor_point : forall p th v, shift p (rotate th v) = placed p th v.
Proof. intros. unfold placed. rewrite rotate_turned. apply shift_moved. Qed.
Lemma placed_origin : forall p th, placed p th (0, 0) = p.
Proof. intros (a & b) th. unfold placed, moved, turned. cbn [fst snd]. f_equal; ring. Qed.
Theorem quadrotor_drawn : forall r p th, 0 < r ->
  (forall x, shown (draw_quadrotor r (p, th)) x -> dist p x <= sqrt (104 / 100) * r) /\
  (exists x, shown (draw_quadrotor r (p, th)) x /\ dist p x = sqrt (104 / 100) * r).
Proof.
  intros r p th P. assert (SQ : 0 <= sqrt (104 / 100)) by apply sqrt_pos.
  assert (S2 : sqrt (104 / 100) * sqrt (104 / 100) = 104 / 100) by (apply sqrt_sqrt; lra).
  assert (E : draw_quadrotor r (p, th) = [map (placed p th)
     [(r, 2 / 10 * r); (r - 2 * (1 / 3 * r), 2 / 10 * r); (r - 1 / 3 * r, 2 / 10 * r); (r - 1 / 3 * r, 0); (- r + 1 / 3 * r, 0);
      (- r + 1 / 3 * r, 2 / 10 * r); (- r, 2 / 10 * r); (- r + 2 * (1 / 3 * r), 2 / 10 * r)]]).
  { unfold draw_quadrotor. cbn [fst snd]. f_equal. apply map_ext. intro v. apply quadrotor_point. }
  rewrite E. split.
  - intros x (s & [<-|[]] & H). apply (hull_dist _ p (sqrt (104 / 100) * r)) in H; [exact H|nra|].
    intros v V. apply in_map_iff in V. destruct V as (u & <- & U). rewrite <- (placed_origin p th) at 1. rewrite dist_placed.
    apply dist_le_iff; [nra|]. replace (sqrt (104 / 100) * r * (sqrt (104 / 100) * r)) with (sqrt (104 / 100) * sqrt (104 / 100) * (r * r)) by ring.
    unfold Rsqr. rewrite S2. repeat (destruct U as [<-|U]; [cbn [fst snd]; nra|]). destruct U.
  - exists (placed p th (r, 2 / 10 * r)). split; [eexists; split; [left; reflexivity|]; apply hull_vertex; left; reflexivity|].
    rewrite <- (placed_origin p th) at 1. rewrite dist_placed. unfold dist. cbn [fst snd].
    replace (Rsqr (0 - r) + Rsqr (0 - 2 / 10 * r)) with (104 / 100 * (r * r)) by (unfold Rsqr; field).
    rewrite sqrt_mult_alt by lra. rewrite sqrt_square by lra. reflexivity.
Qed.
Lemma rot_quad_inner : forall phi theta v, inner3 (rot_quad phi theta v) (rot_quad phi theta v) = inner3 v v.
Proof.
  intros phi theta ((x & y) & z). unfold rot_quad, inner3. cbn [fst snd].
  pose proof (cs2 phi) as A. pose proof (cs2 theta) as B.
  set (c := cos phi) in *. set (s := sin phi) in *. set (C := cos theta) in *. set (Q := sin theta) in *.
  transitivity ((C * C + Q * Q) * (x * x + (s * y + c * z) * (s * y + c * z)) + (c * y - s * z) * (c * y - s * z)); [ring|].
  rewrite B. transitivity (x * x + (c * c + s * s) * (y * y + z * z)); [ring|]. rewrite A. ring.
Qed.
Lemma quad_place : forall phi theta v p, dist3 p (add3 (rot_quad phi theta v) p) = sqrt (inner3 v v).
Proof.
  intros phi theta v p. unfold dist3. f_equal. rewrite <- (rot_quad_inner phi theta v).
  destruct (rot_quad phi theta v) as ((a & b) & c), p as ((p1 & p2) & p3). unfold diff3, add3, inner3. cbn [fst snd]. ring.
Qed.
Theorem quadrotor3_drawn : forall r p phi theta, 0 < r ->
  (forall x, shown3 (draw_quadrotor3 r (pose_quadrotor3 p phi theta)) x -> dist3 p x <= sqrt (104 / 100) * r) /\
  (exists x, shown3 (draw_quadrotor3 r (pose_quadrotor3 p phi theta)) x /\ dist3 p x = sqrt (104 / 100) * r).
Proof.
  intros r p phi theta P. assert (SQ : 0 <= sqrt (104 / 100)) by apply sqrt_pos.
  assert (SM : sqrt (104 / 100) * r = sqrt (104 / 100 * (r * r))).
  { rewrite sqrt_mult_alt by lra. rewrite sqrt_square by lra. reflexivity. }
  unfold draw_quadrotor3, pose_quadrotor3. cbn [fst snd].
  set (pl := fun v : pt3 => add3 (rot_quad phi theta v) p).
  set (ring := map (fun s => (1 / 3 * r * cos (s * 2 * PI), 1 / 3 * r * sin (s * 2 * PI))) (linspace 0 (1 - 1 / 48) 48)).
  split.
  - intros x (s & I & H). apply (hull3_dist s p (sqrt (104 / 100) * r)); [nra| |exact H]. intros v V.
    assert (K : exists u, v = pl u /\ inner3 u u <= 104 / 100 * (r * r)).
    { destruct I as [<-|[<-|I]].
      - apply in_map_iff in V. destruct V as (f & <- & F). exists (fst f, 0, snd f). split; [reflexivity|].
        cbn [combine] in F. repeat (destruct F as [<-|F]; [unfold inner3; cbn [fst snd]; nra|]). destruct F.
      - apply in_map_iff in V. destruct V as (f & <- & F). exists (0, fst f, snd f). split; [reflexivity|].
        cbn [combine] in F. repeat (destruct F as [<-|F]; [unfold inner3; cbn [fst snd]; nra|]). destruct F.
      - apply in_map_iff in I. destruct I as (c & <- & I). apply in_map_iff in V. destruct V as (f & <- & F).
        exists (fst f + fst c, snd f + snd c, 0 + 2 / 10 * r). split; [reflexivity|].
        unfold ring in F. apply in_map_iff in F. destruct F as (t & <- & _). unfold inner3. cbn [fst snd].
        pose proof (cs2 (t * 2 * PI)) as C. set (cc := cos (t * 2 * PI)) in *. set (ss := sin (t * 2 * PI)) in *.
        assert (C1 : -1 <= cc <= 1) by nra. assert (C2 : -1 <= ss <= 1) by nra. pose proof (Rmult_lt_0_compat r r P P) as RR.
        assert (G : forall c1 c2, c1 * c1 + c2 * c2 = 4 / 9 * (r * r) -> cc * c1 + ss * c2 <= 2 / 3 * r ->
           (1 / 3 * r * cc + c1) * (1 / 3 * r * cc + c1) + (1 / 3 * r * ss + c2) * (1 / 3 * r * ss + c2) +
           (0 + 2 / 10 * r) * (0 + 2 / 10 * r) <= 104 / 100 * (r * r)).
        { intros c1 c2 Q1 Q2.
          replace ((1 / 3 * r * cc + c1) * (1 / 3 * r * cc + c1) + (1 / 3 * r * ss + c2) * (1 / 3 * r * ss + c2) + (0 + 2 / 10 * r) * (0 + 2 / 10 * r))
            with (1 / 9 * (r * r) * (cc * cc + ss * ss) + (c1 * c1 + c2 * c2) + 2 / 3 * (r * (cc * c1 + ss * c2)) + 4 / 100 * (r * r)) by field.
          rewrite C, Q1. assert (r * (cc * c1 + ss * c2) <= r * (2 / 3 * r)) by (apply Rmult_le_compat_l; lra). lra. }
        repeat (destruct I as [<-|I]; [cbn [fst snd]; apply G; nra|]). destruct I. }
    destruct K as (u & -> & U). unfold pl. rewrite quad_place, SM. apply sqrt_le_1_alt. exact U.
  - exists (pl (1 / 3 * r * cos (0 * 2 * PI) + (r - 1 / 3 * r), 1 / 3 * r * sin (0 * 2 * PI) + 0, 0 + 2 / 10 * r)). split.
    + exists (map (fun v : pt => pl (fst v + (r - 1 / 3 * r), snd v + 0, 0 + 2 / 10 * r)) ring). split.
      * right. right. left. reflexivity.
      * apply hull3_vertex. apply in_map_iff. exists (1 / 3 * r * cos (0 * 2 * PI), 1 / 3 * r * sin (0 * 2 * PI)). split; [reflexivity|].
        unfold ring. apply in_map_iff. exists 0. split; [reflexivity|]. unfold linspace. apply in_map_iff. exists 0%nat.
        split; [cbn [INR]; unfold Rdiv; ring|]. apply in_seq. lia.
    + unfold pl. rewrite quad_place, SM. f_equal. unfold inner3. cbn [fst snd]. replace (0 * 2 * PI) with 0 by ring.
      rewrite cos_0, sin_0. field.
Qed.

(* ---------- plates ---------- *)
Theorem plate_beam : exists s x, plate (beam 1 1 0) (1 / 10) (0, 0, 0) = Some s /\
  shown3 (draw3 s ((0, 0, 0), (0, 0, 0))) x /\ ~ exists y, body3 (checkpoints3 s) y /\ x = placed3 (0, 0, 0) (0, 0, 0) y.
Proof.
  assert (T0 : forall y, placed3 (0, 0, 0) (0, 0, 0) y = y).
  { intros ((a & b) & c). unfold placed3, turn3, turn_x, turn_y, turn_z, plus3. cbn [fst snd]. rewrite cos_0, sin_0. f_equal; [f_equal|]; ring. }
  assert (R0 : forall y, rot3 (0, 0, 0) y = y).
  { intros y. rewrite rot3_turn3. transitivity (placed3 (0, 0, 0) (0, 0, 0) y); [|apply T0]. unfold placed3.
    destruct (turn3 (0, 0, 0) y) as ((a & b) & c). unfold plus3. cbn [fst snd]. f_equal; [f_equal|]; ring. }
  eexists. exists (1 / 2, - (1 / 2), 0). split; [reflexivity|split].
  - set (f := fun v : pt3 => add3 (0, 0, 0) (rot3 (0, 0, 0) v)).
    set (outline := nth 0 (surfaces2 (beam 1 1 0)) []).
    exists (map f (map (rot3 (0, 0, 0)) (map (fun v : pt => (v, 0)) outline))). split; [left; reflexivity|].
    apply hull3_vertex. apply in_map_iff. exists (1 / 2, - (1 / 2), 0). split.
    { unfold f. rewrite R0. unfold add3. f_equal; [f_equal|]; ring. }
    apply in_map_iff. exists (1 / 2, - (1 / 2), 0). split; [apply R0|]. apply in_map_iff. exists (1 / 2, - (1 / 2)). split; [reflexivity|].
    unfold outline, beam, polyhedron, beam_outline. cbn [surfaces2 map nth]. apply in_map_iff. exists (1 / 2, - (1 / 2)). split.
    { rewrite rotate_turned. unfold turned. cbn [fst snd]. rewrite cos_0, sin_0. f_equal; ring. }
    apply in_or_app. left. apply in_map_iff. exists 0. split.
    { cbn [fst snd]. replace (0 * PI - PI / 2) with (- (PI / 2)) by ring. rewrite cos_neg, sin_neg, cos_PI2, sin_PI2. f_equal; lra. }
    unfold linspace. apply in_map_iff. exists 0%nat. split; [cbn [INR]; unfold Rdiv; ring|]. apply in_seq. lia.
  - intros (y & Y & E). rewrite T0 in E. subst y.
    eapply (plate_body (beam_outline 1) [(1 / 2, 0); (- (1 / 2), 0)] 0 (1 / 2)) in Y; [|reflexivity].
    destruct Y as (c & C & D).
    assert (C0 : snd c = 0).
    { clear D. induction C as [v V | s p q S P IP Q IQ].
      - destruct V as [<-|[<-|[]]]; reflexivity.
      - unfold between. cbn [snd]. rewrite IP, IQ. ring. }
    replace (turn3 (0, 0, 0) (turned 0 c, 0)) with (c, 0) in D.
    + apply dist3_le_iff in D; [|lra]. destruct c as (c1 & c2). cbn [snd] in C0. subst c2. unfold inner3, diff3 in D. cbn [fst snd] in D.
      pose proof (Rle_0_sqr (c1 - 1 / 2)) as F1. unfold Rsqr in F1. lra.
    + rewrite <- rot3_turn3, R0. destruct c as (c1 & c2). unfold turned. cbn [fst snd]. rewrite cos_0, sin_0. f_equal. f_equal; ring.
Qed.

(* ---------- trailers ---------- *)
Theorem trailer_safe : forall id s lead os hy sd sd_lead l_hitch position th_tr tg_veh cons,
  made s -> (forall o, In o os -> made (fst o)) ->
  trailer_problem [(id, s)] lead os hy sd sd_lead l_hitch position (tan (th_tr / 2)) tg_veh = Some cons ->
  cos (th_tr / 2) <> 0 -> (forall e, In e cons -> e <= 0) ->
  forall l o pos phi x y, nth_error os l = Some (o, (pos, phi)) ->
  shown (draw2 s (ahead position (- l_hitch) th_tr, th_tr)) x -> shown (draw2 o (pos, phi)) y ->
  sd - h_eps (hy 0%nat l) <= dist x y.
Proof.
  intros id s lead os hy sd sd_lead l_hitch position th_tr tg_veh cons M MO E C H l o pos phi x y L X Y.
  apply drawn_in_body in X; [|exact M]. apply drawn_in_body in Y; [|exact (MO _ (nth_error_In _ _ L))].
  destruct X as (x' & X & ->), Y as (y' & Y & ->). unfold trailer_problem, trailer_cons in E.
  cbn [length vehicle_cons] in E. destruct (dubins_cons lead _ sd_lead position tg_veh) as [dc|]; [|discriminate]. cbn [both] in E.
  injection E as <-.
  eapply (heading_apart id s os hy sd position th_tr (- l_hitch)); [reflexivity|exact C| |exact L|exact X|exact Y].
  intros e I. apply H. apply in_app_or in I. apply in_or_app. destruct I as [I|I]; [left; exact I|right; apply in_or_app; left; exact I].
Qed.
Lemma find_fresh : forall shapes n hy id, (forall s, In s shapes -> fst s <> id) -> find_hyps id (env_hyps shapes n hy) = None.
Proof.
  intros shapes n hy id. unfold env_hyps. generalize 0%nat at 2. induction shapes as [|s shapes IH]; intros k H; [reflexivity|].
  cbn [length seq combine map find_hyps fst snd]. destruct (Nat.eqb_spec (fst s) id) as [E|E]; [exfalso; apply (H s); [left; reflexivity|exact E]|].
  apply IH. intros t T. apply H. right. exact T.
Qed.
(* whatever leads, and wherever it looks: the constraints are the same *)
Theorem lead_unseen : forall shapes lid ls os hy sd sd_lead l_hitch position tg_tr tg_veh,
  (forall s, In s shapes -> fst s <> lid) ->
  trailer_problem shapes [(lid, ls)] os hy sd sd_lead l_hitch position tg_tr tg_veh =
  both (Some (obstacle_cons (length shapes) os hy))
       (vehicle_cons shapes (env_hyps shapes (length os) hy) sd position tg_tr (- l_hitch)).
Proof.
  intros shapes lid ls os hy sd sd_lead l_hitch position tg_tr tg_veh F. unfold trailer_problem, trailer_cons, dubins_cons.
  cbn [vehicle_cons]. unfold shape_cons. cbn [fst]. rewrite (find_fresh shapes (length os) hy lid F).
  unfold both. destruct (vehicle_cons shapes _ sd position tg_tr (- l_hitch)); [|reflexivity]. rewrite app_nil_r. reflexivity.
Qed.
Theorem lead_hits : exists os hy sd cons x,
  trailer_problem [(0%nat, circle (1 / 4))] [(1%nat, circle (1 / 4))] os hy sd sd 1 (0, 0) (tan (0 / 2)) (tan (0 / 2)) = Some cons /\
  (forall e, In e cons -> e <= 0) /\ h_eps (hy 0%nat 0%nat) < sd /\
  shown (draw_dubins [circle (1 / 4)] ((0, 0), 0)) x /\
  exists o pos phi, nth_error os 0 = Some (o, (pos, phi)) /\ shown (draw2 o (pos, phi)) x.
Proof.
  exists [(circle (1 / 4), ((0, 0), 0))], (fun _ _ => mkHyp (1, 0) (- (1 / 2)) 0), (1 / 4).
  eexists. exists (1 / 4, 0).
  assert (S1 : shown (draw2 (circle (1 / 4)) ((0, 0), 0)) (1 / 4, 0)).
  { exists (map (placed (0, 0) 0) (circle_outline (1 / 4))). split.
    - left. apply map_ext. intro v. apply quadrotor_point.
    - apply hull_vertex. apply in_map_iff. exists (1 / 4, 0). split; [apply placed_0|]. unfold circle_outline. apply in_map_iff.
      exists 0. split; [replace (0 * 2 * PI) with 0 by ring; rewrite cos_0, sin_0; f_equal; ring|].
      unfold linspace. apply in_map_iff. exists 0%nat. split; [cbn [INR]; unfold Rdiv; ring|]. apply in_seq. lia. }
  split; [rewrite lead_unseen; [reflexivity|intros s [<-|[]]; discriminate]|split; [|split; [|split]]].
  - intros e I. cbn in I. unfold norm_con, veh_con, obs_con, rotate in I. cbn [fst snd h_a h_b h_eps] in I.
    replace (0 / 2) with 0 in I by field. rewrite tan_0, cos_0, sin_0 in I.
    repeat (destruct I as [<-|I]; [cbn [fst snd]; lra|]). destruct I.
  - cbn [h_eps]. lra.
  - unfold draw_dubins. cbn [flat_map]. rewrite app_nil_r. unfold draw_dubins_shape. cbn [circle family2]. apply shown_app_l. exact S1.
  - exists (circle (1 / 4)), (0, 0), 0. split; [reflexivity|exact S1].
Qed.
Theorem several_shapes : forall s1 s2 rest os hy sd position tg,
  dubins_problem (s1 :: s2 :: rest) os hy sd position tg = None /\
  holonomic_problem (s1 :: s2 :: rest) os hy sd position tg = None.
Proof. intros s1 (i & s2) rest os hy sd position tg. destruct s1 as (j & s1). split; reflexivity. Qed.

(* ---------- environment ---------- *)
Lemma draw_obstacles_some : forall os, (exists t, draw_obstacles2 os = Some t) <-> (forall o, In o os -> o_shown o = true).
Proof.
  induction os as [|o os IH].
  - split; [intros _ o []|intros _; exists []; reflexivity].
  - cbn [draw_obstacles2]. unfold draw_obstacle2. destruct (o_shown o) eqn:S.
    + destruct (draw_obstacles2 os) as [t|].
      * split; [|intros _; eexists; reflexivity]. intros _ q [<-|Q]; [exact S|]. apply (proj1 IH); [exists t; reflexivity|exact Q].
      * split; [intros (t & T); discriminate|]. intros H. destruct (proj2 IH) as (t & T); [|discriminate].
        intros q Q. apply H. right. exact Q.
    + split; [intros (t & T); discriminate|]. intros H. specialize (H o (or_introl eq_refl)). congruence.
Qed.
Lemma draw_obstacles_shown : forall os t, draw_obstacles2 os = Some t ->
  forall x, shown t x <-> exists o, In o os /\ shown (draw2 (o_shape o) (o_pos o, o_orient o)) x.
Proof.
  induction os as [|o os IH]; intros t E x.
  - injection E as <-. split; [intros (s & [] & _)|intros (o & [] & _)].
  - cbn [draw_obstacles2] in E. unfold draw_obstacle2 in E. destruct (o_shown o); [|discriminate].
    destruct (draw_obstacles2 os) as [t'|]; [|discriminate]. injection E as <-. split.
    + intros H. apply shown_app in H. destruct H as [H|H]; [exists o; split; [left; reflexivity|exact H]|].
      apply (IH t' eq_refl) in H. destruct H as (q & Q & H). exists q. split; [right; exact Q|exact H].
    + intros (q & [<-|Q] & H); [apply shown_app_l; exact H|]. apply shown_app_r. apply (IH t' eq_refl). exists q. auto.
Qed.
Theorem environment_drawn : forall rooms os,
  ((exists t, draw_environment2 rooms os = Some t) <-> (forall o, In o os -> o_shown o = true)) /\
  (forall t, draw_environment2 rooms os = Some t -> forall x, shown t x <->
     (exists q, In q rooms /\ r_draw q = true /\ shown (draw2 (r_shape q) (r_pos q, r_orient q)) x) \/
     (exists o, In o os /\ shown (draw2 (o_shape o) (o_pos o, o_orient o)) x)).
Proof.
  intros rooms os. unfold draw_environment2. split.
  - rewrite <- draw_obstacles_some. destruct (draw_obstacles2 os) as [t|].
    + split; intros _; eexists; reflexivity.
    + split; intros (t & T); discriminate.
  - intros t E x. destruct (draw_obstacles2 os) as [u|] eqn:U; [|discriminate]. injection E as <-.
    assert (RM : shown (flat_map (fun q => if r_draw q then draw2 (r_shape q) (r_pos q, r_orient q) else []) rooms) x <->
      exists q, In q rooms /\ r_draw q = true /\ shown (draw2 (r_shape q) (r_pos q, r_orient q)) x).
    { split.
      - intros (s & I & H). apply in_flat_map in I. destruct I as (q & Q & I). exists q.
        destruct (r_draw q) eqn:D; [|destruct I]. split; [exact Q|split; [reflexivity|exists s; auto]].
      - intros (q & Q & D & (s & I & H)). exists s. split; [|exact H]. apply in_flat_map. exists q. split; [exact Q|]. rewrite D. exact I. }
    split.
    + intros H. apply shown_app in H. destruct H as [H|H]; [left; apply RM; exact H|right; apply (draw_obstacles_shown os u U); exact H].
    + intros [H|H]; [apply shown_app_l; apply RM; exact H|apply shown_app_r; apply (draw_obstacles_shown os u U); exact H].
Qed.
(* a room that is drawn turned *)
Theorem turned_room : exists q s position x, r_orient q <> 0 /\ made s /\
  (exists w h, 0 <= w /\ 0 <= h /\ r_shape q = rectangle w h 0) /\
  (forall e, In e (room_problem q s position) -> e <= 0) /\
  shown (draw_vehicle2 [s] (pose_holonomic position)) x /\
  ~ shown (draw2 (r_shape q) (r_pos q, r_orient q)) x.
Proof.
  exists (mkRoom2 (rectangle 4 2 0) (0, 0) (PI / 2) true), (circle (1 / 2)), (3 / 2, 0), (2, 0).
  cbn [r_shape r_pos r_orient]. split; [pose proof PI_RGT_0; lra|split; [constructor; lra|split; [exists 4, 2; split; [lra|split; [lra|reflexivity]]|]]].
  split; [|split].
  - intros e I. unfold room_problem in I. cbn [r_shape r_pos circle checkpoints2 family2 radius2 flat_map app] in I.
    rewrite rectangle_limits in I by lra. unfold room_cons in I. cbn [fst snd app] in I.
    repeat (destruct I as [<-|I]; [lra|]). destruct I.
  - exists (map (placed (3 / 2, 0) 0) (circle_outline (1 / 2))). split.
    + left. unfold pose_holonomic. cbn [fst snd]. apply map_ext. intro v. apply quadrotor_point.
    + apply hull_vertex. apply in_map_iff. exists (1 / 2, 0). split.
      { unfold placed, moved, turned. cbn [fst snd]. rewrite cos_0, sin_0. f_equal; lra. }
      unfold circle_outline. apply in_map_iff.
      exists 0. split; [replace (0 * 2 * PI) with 0 by ring; rewrite cos_0, sin_0; f_equal; ring|].
      unfold linspace. apply in_map_iff. exists 0%nat. split; [cbn [INR]; unfold Rdiv; ring|]. apply in_seq. lia.
  - intros H. apply drawn_rectangle in H; [|lra|lra]. destruct H as (_ & B). rewrite Rplus_0_l, cos_PI2, sin_PI2 in B. cbn [fst snd] in B.
    apply Rabs_le_iff in B. lra.
Qed.
