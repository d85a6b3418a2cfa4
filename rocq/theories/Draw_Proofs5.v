(* Constraints that hold keep what is drawn apart. *)
Require Import Reals List Lra Lia Psatz ZArith.
From Verif Require Import Geom_Model Geom_Spec Geom_Proofs Geom_Proofs2 Geom_Proofs3 Geom_Proofs4.
From Verif Require Import Angle_Model Angle_Proofs Draw_Model Draw_Spec Draw_Proofs Draw_Proofs2 Draw_Proofs3 Draw_Proofs4.
Import ListNotations.
Open Scope R_scope.

Lemma dist_placed : forall p th x y, dist (placed p th x) (placed p th y) = dist x y.
Proof.
  intros. unfold placed. rewrite <- (dist_turned th x y). unfold dist, moved. cbn [fst snd]. f_equal. unfold Rsqr. ring.
Qed.
Lemma dist_placed3 : forall p o x y, dist3 (placed3 p o x) (placed3 p o y) = dist3 x y.
Proof.
  intros p o x y. unfold placed3. rewrite <- !rot3_turn3. unfold dist3. f_equal.
  assert (E : diff3 (plus3 p (rot3 o x)) (plus3 p (rot3 o y)) = diff3 (rot3 o x) (rot3 o y)).
  { destruct (rot3 o x) as ((a & b) & c), (rot3 o y) as ((a' & b') & c'), p as ((p0 & p1) & p2). unfold diff3, plus3. cbn [fst snd].
    f_equal; [f_equal|]; ring. }
  rewrite E.
  assert (I : forall u v, inner3 (diff3 u v) (diff3 u v) = inner3 u u - 2 * inner3 u v + inner3 v v).
  { intros ((a & b) & c) ((a' & b') & c'). unfold diff3, inner3. cbn [fst snd]. ring. }
  rewrite !I, !rot3_inner. reflexivity.
Qed.

(* the side of a line on which a placed body lies *)
Lemma body_le : forall a B cs p th, fst a * fst a + snd a * snd a <= 1 ->
  (forall c r, In (c, r) cs -> fst a * fst (placed p th c) + snd a * snd (placed p th c) + r <= B) ->
  forall y, body cs y -> fst a * fst (placed p th y) + snd a * snd (placed p th y) <= B.
Proof.
  intros a B cs p th N H y Y. induction Y as [c r x I D | s u v S U IU V IV].
  - pose proof (H c r I) as K. pose proof (inner_le_dist a (placed p th c) (placed p th x) N) as L.
    rewrite dist_placed in L. lra.
  - pose proof (placed_affine p th s u v) as E. rewrite E. unfold between at 1 2. cbn [fst snd].
    set (A := placed p th u) in *. set (C := placed p th v) in *.
    replace (fst a * (fst A + s * (fst C - fst A)) + snd a * (snd A + s * (snd C - snd A))) with
      ((1 - s) * (fst a * fst A + snd a * snd A) + s * (fst a * fst C + snd a * snd C)) by ring. nra.
Qed.
Lemma body3_le : forall a B cs p o, inner3 a a <= 1 ->
  (forall c r, In (c, r) cs -> inner3 a (placed3 p o c) + r <= B) ->
  forall y, body3 cs y -> inner3 a (placed3 p o y) <= B.
Proof.
  intros a B cs p o N H y Y. induction Y as [c r x I D | s u v S U IU V IV].
  - pose proof (H c r I) as K. pose proof (inner3_le_dist a (placed3 p o c) (placed3 p o x) N) as L.
    rewrite dist_placed3 in L. lra.
  - pose proof (placed3_affine p o s u v) as E. rewrite E.
    set (A := placed3 p o u) in *. set (C := placed3 p o v) in *.
    replace (inner3 a (between3 s A C)) with ((1 - s) * inner3 a A + s * inner3 a C)
      by (destruct a as ((? & ?) & ?), A as ((? & ?) & ?), C as ((? & ?) & ?); unfold inner3, between3; cbn [fst snd]; ring).
    nra.
Qed.
Lemma bodies_apart : forall a b m cs p th cs' q ph, fst a * fst a + snd a * snd a <= 1 ->
  (forall c r, In (c, r) cs -> fst a * fst (placed p th c) + snd a * snd (placed p th c) + r <= b - m) ->
  (forall c r, In (c, r) cs' -> b + r <= fst a * fst (placed q ph c) + snd a * snd (placed q ph c)) ->
  forall x y, body cs x -> body cs' y -> m <= dist (placed p th x) (placed q ph y).
Proof.
  intros a b m cs p th cs' q ph N V O x y X Y.
  pose proof (body_le a (b - m) cs p th N V x X) as K.
  pose proof (body_le (- fst a, - snd a) (- b) cs' q ph) as L. cbn [fst snd] in L.
  assert (L' : - fst a * fst (placed q ph y) + - snd a * snd (placed q ph y) <= - b).
  { apply L; [nra| |exact Y]. intros c r I. specialize (O c r I). lra. }
  pose proof (inner_le_dist a (placed p th x) (placed q ph y) N). lra.
Qed.
Lemma bodies3_apart : forall a b m cs p o cs' q o', inner3 a a <= 1 ->
  (forall c r, In (c, r) cs -> inner3 a (placed3 p o c) + r <= b - m) ->
  (forall c r, In (c, r) cs' -> b + r <= inner3 a (placed3 q o' c)) ->
  forall x y, body3 cs x -> body3 cs' y -> m <= dist3 (placed3 p o x) (placed3 q o' y).
Proof.
  intros a b m cs p o cs' q o' N V O x y X Y.
  pose proof (body3_le a (b - m) cs p o N V x X) as K.
  assert (I : forall v, inner3 (- fst (fst a), - snd (fst a), - snd a) v = - inner3 a v)
    by (intros v; unfold inner3; cbn [fst snd]; ring).
  pose proof (body3_le (- fst (fst a), - snd (fst a), - snd a) (- b) cs' q o') as L.
  assert (L' : inner3 (- fst (fst a), - snd (fst a), - snd a) (placed3 q o' y) <= - b).
  { apply L; [| |exact Y].
    - unfold inner3 in *. cbn [fst snd] in *. lra.
    - intros c r J. rewrite I. specialize (O c r J). lra. }
  rewrite I in L'. pose proof (inner3_le_dist a (placed3 p o x) (placed3 q o' y) N). lra.
Qed.

Lemma nth_combine : forall (A : Type) (l : list A) k n x, nth_error l k = Some x -> In ((n + k)%nat, x) (combine (seq n (length l)) l).
Proof.
  induction l as [|y l IH]; intros k n x H; [destruct k; discriminate|]. destruct k as [|k]; cbn [length seq combine].
  - injection H as <-. left. f_equal. lia.
  - right. replace (n + Datatypes.S k)%nat with (Datatypes.S n + k)%nat by lia. apply IH. exact H.
Qed.
Lemma problem_hyps : forall id s os hy sd position tg off cons,
  both (Some (obstacle_cons 1 os hy)) (vehicle_cons [(id, s)] (env_hyps [(id, s)] (length os) hy) sd position tg off) = Some cons ->
  (forall e, In e cons -> e <= 0) ->
  forall l o pos phi, nth_error os l = Some (o, (pos, phi)) ->
  norm_con (h_a (hy 0%nat l)) <= 0 /\
  (forall c r, In (c, r) (checkpoints2 o) -> obs_con (h_a (hy 0%nat l)) (h_b (hy 0%nat l)) c r pos (cos phi) (sin phi) 1 <= 0) /\
  (forall c r, In (c, r) (checkpoints2 s) ->
     veh_con (h_a (hy 0%nat l)) (h_b (hy 0%nat l)) c r 1 sd (h_eps (hy 0%nat l)) position tg off <= 0).
Proof.
  intros id s os hy sd position tg off cons E H l o pos phi L. unfold both in E. cbn [vehicle_cons] in E.
  injection E as <-. pose proof (nth_combine _ _ _ 0 _ L) as I. cbn [Nat.add] in I.
  assert (Hl : (l < length os)%nat) by (apply nth_error_Some; rewrite L; discriminate).
  assert (O : forall e, In e (norm_con (h_a (hy 0%nat l)) ::
    map (fun c => obs_con (h_a (hy 0%nat l)) (h_b (hy 0%nat l)) (fst c) (snd c) pos (cos phi) (sin phi) 1) (checkpoints2 o)) -> e <= 0).
  { intros e J. apply H. apply in_or_app. left. unfold obstacle_cons. cbn [seq flat_map]. rewrite app_nil_r.
    apply in_flat_map. exists (l, (o, (pos, phi))). split; [exact I|exact J]. }
  split; [apply O; left; reflexivity|split].
  - intros c r J. apply O. right. apply in_map_iff. exists (c, r). split; [reflexivity|exact J].
  - intros c r J. apply H. apply in_or_app. right. unfold shape_cons, env_hyps. cbn [combine seq length map fst snd find_hyps].
    rewrite Nat.eqb_refl. apply in_flat_map. exists (hy 0%nat l). split; [apply in_map; apply in_seq; lia|].
    apply in_map_iff. exists (c, r). split; [reflexivity|exact J].
Qed.
Lemma world_placed : forall p th off c, world p th off c = placed (ahead p off th) th c.
Proof. intros. unfold world, placed, ahead, moved. cbn [fst snd]. f_equal; ring. Qed.
Lemma ahead_0 : forall p th, ahead p 0 th = p.
Proof. intros (a & b) th. unfold ahead. cbn [fst snd]. f_equal; ring. Qed.

(* one shape of which the heading is in the constraints *)
Lemma heading_apart : forall id s os hy sd position th off cons,
  both (Some (obstacle_cons 1 os hy))
    (vehicle_cons [(id, s)] (env_hyps [(id, s)] (length os) hy) sd position (tan (th / 2)) off) = Some cons ->
  cos (th / 2) <> 0 -> (forall e, In e cons -> e <= 0) ->
  forall l o pos phi, nth_error os l = Some (o, (pos, phi)) ->
  forall x y, body (checkpoints2 s) x -> body (checkpoints2 o) y ->
  sd - h_eps (hy 0%nat l) <= dist (placed (ahead position off th) th x) (placed pos phi y).
Proof.
  intros id s os hy sd position th off cons E C H l o pos phi L x y X Y.
  destruct (problem_hyps _ _ _ _ _ _ _ _ _ E H _ _ _ _ L) as (N & O & V).
  apply (bodies_apart (h_a (hy 0%nat l)) (h_b (hy 0%nat l)) _ (checkpoints2 s) _ _ (checkpoints2 o)); [unfold norm_con in N; lra| | |exact X|exact Y].
  - intros c r I. specialize (V c r I). apply veh_con_le in V; [|exact C]. rewrite world_placed in V. lra.
  - intros c r I. specialize (O c r I).
    replace (cos phi) with (1 * cos phi) in O by ring. replace (sin phi) with (1 * sin phi) in O by ring.
    apply obs_con_le in O; [|lra]. rewrite world_placed, ahead_0 in O. exact O.
Qed.
(* a disc, of which it is not *)
Lemma disc_apart : forall id s os hy sd position th cons, family2 s = FCircle ->
  both (Some (obstacle_cons 1 os hy)) (vehicle_cons [(id, s)] (env_hyps [(id, s)] (length os) hy) sd position 0 0) = Some cons ->
  (forall e, In e cons -> e <= 0) ->
  forall l o pos phi, nth_error os l = Some (o, (pos, phi)) ->
  forall x y, body (checkpoints2 s) x -> body (checkpoints2 o) y ->
  sd - h_eps (hy 0%nat l) <= dist (placed position th x) (placed pos phi y).
Proof.
  intros id s os hy sd position th cons F E H l o pos phi L x y X Y.
  destruct (problem_hyps _ _ _ _ _ _ _ _ _ E H _ _ _ _ L) as (N & O & V).
  apply (bodies_apart (h_a (hy 0%nat l)) (h_b (hy 0%nat l)) _ (checkpoints2 s) _ _ (checkpoints2 o)); [unfold norm_con in N; lra| | |exact X|exact Y].
  - intros c r I. pose proof (V c r I) as K. unfold checkpoints2 in I. rewrite F in I. destruct I as [I|[]]. injection I as <- <-.
    unfold veh_con in K. unfold placed, moved, turned. cbn [fst snd] in *. nra.
  - intros c r I. specialize (O c r I).
    replace (cos phi) with (1 * cos phi) in O by ring. replace (sin phi) with (1 * sin phi) in O by ring.
    apply obs_con_le in O; [|lra]. rewrite world_placed, ahead_0 in O. exact O.
Qed.
Theorem holonomic_safe : forall id s os hy sd position th cons, made s -> (forall o, In o os -> made (fst o)) ->
  holonomic_problem [(id, s)] os hy sd position (tan (th / 2)) = Some cons -> cos (th / 2) <> 0 ->
  (forall e, In e cons -> e <= 0) ->
  forall l o pos phi x y, nth_error os l = Some (o, (pos, phi)) ->
  shown (draw_vehicle2 [s] (position, th)) x -> shown (draw2 o (pos, phi)) y ->
  sd - h_eps (hy 0%nat l) <= dist x y.
Proof.
  intros id s os hy sd position th cons M MO E C H l o pos phi x y L X Y.
  unfold draw_vehicle2 in X. cbn [flat_map] in X. rewrite app_nil_r in X.
  apply drawn_in_body in X; [|exact M]. apply drawn_in_body in Y; [|exact (MO _ (nth_error_In _ _ L))].
  destruct X as (x' & X & ->), Y as (y' & Y & ->).
  pose proof (heading_apart _ _ _ _ _ _ _ 0 _ E C H _ _ _ _ L _ _ X Y) as K. rewrite ahead_0 in K. exact K.
Qed.

(* ---------- a shape around what is drawn ---------- *)
Lemma shown_app : forall a b x, shown (a ++ b) x -> shown a x \/ shown b x.
Proof. intros a b x (s & I & H). apply in_app_or in I. destruct I; [left|right]; exists s; auto. Qed.
Lemma shown_app_l : forall a b x, shown a x -> shown (a ++ b) x.
Proof. intros a b x (s & I & H). exists s. split; [apply in_or_app; left; exact I|exact H]. Qed.
Lemma shown_app_r : forall a b x, shown b x -> shown (a ++ b) x.
Proof. intros a b x (s & I & H). exists s. split; [apply in_or_app; right; exact I|exact H]. Qed.
Lemma drawn_plain : forall vs th r p phi x,
  shown (draw2 (polyhedron plain_surface vs th r) (p, phi)) x <-> exists y, hull vs y /\ x = placed p phi (turned th y).
Proof.
  intros vs th r p phi x. split.
  - intros H. apply shown_draw2 in H. destruct H as (y & (surf & [<-|[]] & Y) & ->).
    rewrite map_rotate in Y. apply hull_affine_inv in Y; [|apply turned_affine]. destruct Y as (z & Z & ->). exists z. auto.
  - intros (y & Y & ->). exists (map (fun v => shift p (rotate phi v)) (map (rotate th) vs)). split; [left; reflexivity|].
    rewrite map_map. pose proof (hull_affine (fun v => placed p phi (turned th v)) vs y) as K.
    assert (A : affine (fun v => placed p phi (turned th v))).
    { intros s u v. rewrite (turned_affine th s u v). apply placed_affine. }
    specialize (K A Y). erewrite map_ext; [exact K|]. intro v. unfold placed. cbv beta.
    rewrite !rotate_turned, shift_moved. reflexivity.
Qed.
Lemma turned_turned : forall a b y, turned a (turned b y) = turned (b + a) y.
Proof.
  intros a b (y1 & y2). unfold turned. cbn [fst snd]. rewrite cos_plus, sin_plus. f_equal; ring.
Qed.
Theorem drawn_rectangle : forall w h th p phi x, 0 <= w -> 0 <= h ->
  (shown (draw2 (rectangle w h th) (p, phi)) x <-> in_rect p w h (th + phi) x).
Proof.
  intros w h th p phi x W P. unfold rectangle. rewrite drawn_plain. unfold in_rect. split.
  - intros (y & Y & ->). apply rectangle_hull in Y; [|exact W|exact P]. unfold placed. rewrite turned_turned.
    unfold moved, turned. cbn [fst snd]. set (a := th + phi). pose proof (cs2 a) as C.
    replace (cos a * (fst y * cos a - snd y * sin a + fst p - fst p) + sin a * (fst y * sin a + snd y * cos a + snd p - snd p))
      with ((cos a * cos a + sin a * sin a) * fst y) by ring.
    replace (- sin a * (fst y * cos a - snd y * sin a + fst p - fst p) + cos a * (fst y * sin a + snd y * cos a + snd p - snd p))
      with ((cos a * cos a + sin a * sin a) * snd y) by ring.
    replace (cos a * cos a + sin a * sin a) with 1 by lra. rewrite !Rmult_1_l. exact Y.
  - set (a := th + phi). intros H. pose proof (cs2 a) as C.
    exists (cos a * (fst x - fst p) + sin a * (snd x - snd p), - sin a * (fst x - fst p) + cos a * (snd x - snd p)).
    split; [apply rectangle_hull; assumption|]. unfold placed. rewrite turned_turned. fold a. unfold moved, turned. cbn [fst snd].
    assert (E : cos a * cos a + sin a * sin a = 1) by lra. destruct x as (x1 & x2). cbn [fst snd]. f_equal.
    + replace ((cos a * (x1 - fst p) + sin a * (x2 - snd p)) * cos a - (- sin a * (x1 - fst p) + cos a * (x2 - snd p)) * sin a)
        with ((cos a * cos a + sin a * sin a) * (x1 - fst p)) by ring. rewrite E. ring.
    + replace ((cos a * (x1 - fst p) + sin a * (x2 - snd p)) * sin a + (- sin a * (x1 - fst p) + cos a * (x2 - snd p)) * cos a)
        with ((cos a * cos a + sin a * sin a) * (x2 - snd p)) by ring. rewrite E. ring.
Qed.
Lemma shown_rectangle : forall w h p phi x d, 0 <= w -> 0 <= h -> 0 <= d -> w * w + h * h <= 4 * (d * d) ->
  shown (draw2 (rectangle w h 0) (p, phi)) x -> dist p x <= d.
Proof.
  intros w h p phi x d W P D L H. apply drawn_rectangle in H; [|exact W|exact P]. unfold in_rect in H.
  rewrite Rplus_0_l in H. destruct H as (A & B). apply Rabs_le_iff in A. apply Rabs_le_iff in B.
  apply dist_le_iff; [exact D|]. unfold Rsqr. pose proof (cs2 phi) as C. set (c := cos phi) in *. set (s := sin phi) in *.
  set (u := fst x - fst p) in *. set (v := snd x - snd p) in *.
  assert (I : (c * u + s * v) * (c * u + s * v) + (- s * u + c * v) * (- s * u + c * v) = (c * c + s * s) * (u * u + v * v)) by ring.
  assert (E : c * c + s * s = 1) by lra. rewrite E in I.
  replace (fst p - fst x) with (- u) by (unfold u; ring). replace (snd p - snd x) with (- v) by (unfold v; ring). nra.
Qed.
Lemma shown_circle : forall r p th x, 0 <= r -> shown (draw2 (circle r) (p, th)) x -> dist p x <= r.
Proof.
  intros r p th x R H. apply drawn_in_body in H; [|constructor; exact R]. destruct H as (y & Y & ->). apply disc_body in Y.
  replace p with (placed p th (0, 0)) at 1; [rewrite dist_placed; exact Y|]. destruct p as (p1 & p2).
  unfold placed, moved, turned. cbn [fst snd]. f_equal; ring.
Qed.
Lemma dist_ahead : forall p d th, dist p (ahead p d th) = Rabs d.
Proof.
  intros p d th. unfold dist, ahead. cbn [fst snd].
  replace (Rsqr (fst p - (fst p + d * cos th)) + Rsqr (snd p - (snd p + d * sin th))) with (Rsqr d).
  - apply sqrt_Rsqr_abs.
  - unfold Rsqr. pose proof (cs2 th) as C.
    transitivity (d * d * (cos th * cos th + sin th * sin th)); [|ring]. replace (cos th * cos th + sin th * sin th) with 1 by lra. ring.
Qed.
Lemma dubins_disc_drawn : forall r p th x, 0 <= r -> shown (draw_dubins_shape (p, th) (circle r)) x -> dist p x <= r.
Proof.
  intros r p th x R H. unfold draw_dubins_shape in H. cbn [circle family2 radius2 fst snd] in H.
  fold (circle r) in H. apply shown_app in H. destruct H as [H|H]; [apply (shown_circle r p th x R H)|].
  assert (W : forall q x, dist p q <= r / 2 -> shown (draw2 (square (r / 3) 0) (q, th)) x -> dist p x <= r).
  { intros q z Q Z. apply (shown_rectangle _ _ _ _ _ (r / 4)) in Z; [|lra|lra|lra|nra].
    pose proof (dist_triangle p q z). lra. }
  assert (HR : Rabs (r / 2) = r / 2) by (apply Rabs_right; lra).
  apply shown_app in H. destruct H as [H|H].
  { eapply W; [|exact H]. rewrite dist_ahead. lra. }
  apply shown_app in H. destruct H as [H|H].
  { eapply W; [|exact H]. rewrite dist_ahead. lra. }
  apply shown_circle in H; [|lra]. pose proof (dist_triangle p (ahead p (r / (15 / 10)) th) x) as T.
  rewrite dist_ahead in T. rewrite Rabs_right in T by (unfold Rdiv; nra). lra.
Qed.
Lemma dubins_drawn : forall s p th x, made s -> shown (draw_dubins [s] (p, th)) x ->
  exists y, body (checkpoints2 s) y /\ x = placed p th y.
Proof.
  intros s p th x M H. unfold draw_dubins in H. cbn [flat_map] in H. rewrite app_nil_r in H.
  destruct (family2 s) eqn:F.
  - assert (exists r, 0 <= r /\ s = circle r) as (r & R & ->) by (destruct M; try discriminate F; eexists; split; [|reflexivity]; assumption).
    apply dubins_disc_drawn in H; [|exact R].
    exists (turned (- th) (fst x - fst p, snd x - snd p)).
    assert (E : x = placed p th (turned (- th) (fst x - fst p, snd x - snd p))).
    { unfold placed. rewrite turned_turned, Rplus_opp_l. destruct x as (x1 & x2). unfold moved, turned. cbn [fst snd].
      rewrite cos_0, sin_0. f_equal; ring. }
    split; [|exact E]. apply disc_body. rewrite <- (dist_placed p th), <- E.
    replace (placed p th (0, 0)) with p; [exact H|]. destruct p as (p1 & p2). unfold placed, moved, turned. cbn [fst snd]. f_equal; ring.
  - unfold draw_dubins_shape in H. rewrite F in H. apply drawn_in_body; assumption.
Qed.
Theorem dubins_safe : forall id s os hy sd position th cons, made s -> (forall o, In o os -> made (fst o)) ->
  dubins_problem [(id, s)] os hy sd position (tan (th / 2)) = Some cons -> cos (th / 2) <> 0 ->
  (forall e, In e cons -> e <= 0) ->
  forall l o pos phi x y, nth_error os l = Some (o, (pos, phi)) ->
  shown (draw_dubins [s] (position, th)) x -> shown (draw2 o (pos, phi)) y ->
  sd - h_eps (hy 0%nat l) <= dist x y.
Proof.
  intros id s os hy sd position th cons M MO E C H l o pos phi x y L X Y.
  apply dubins_drawn in X; [|exact M]. apply drawn_in_body in Y; [|exact (MO _ (nth_error_In _ _ L))].
  destruct X as (x' & X & ->), Y as (y' & Y & ->). unfold dubins_problem, dubins_cons in E.
  destruct (family2 s) eqn:F.
  - apply (disc_apart _ _ _ _ _ _ th _ F E H _ _ _ _ L _ _ X Y).
  - pose proof (heading_apart _ _ _ _ _ _ _ 0 _ E C H _ _ _ _ L _ _ X Y) as K. rewrite ahead_0 in K. exact K.
Qed.
Theorem solid_safe : forall s os hy sd position, made3 s -> (forall o, In o os -> made3 (fst o)) ->
  (forall e, In e (solid_problem s os hy sd position) -> e <= 0) ->
  forall l o pos x y, nth_error os l = Some (o, pos) ->
  shown3 (draw_vehicle3 [s] (pose_holonomic3 position)) x -> shown3 (draw_obstacle3 true o pos) y ->
  sd - h3_eps (hy l) <= dist3 x y.
Proof.
  intros s os hy sd position M MO H l o pos x y L X Y. unfold draw_vehicle3, pose_holonomic3 in X. cbn [flat_map] in X.
  rewrite app_nil_r in X. unfold draw_obstacle3 in Y.
  apply drawn_in_body3 in X; [|exact M]. apply drawn_in_body3 in Y; [|exact (MO _ (nth_error_In _ _ L))].
  destruct X as (x' & X & ->), Y as (y' & Y & ->).
  pose proof (nth_combine _ _ _ 0 _ L) as I. cbn [Nat.add] in I.
  assert (Hl : (l < length os)%nat) by (apply nth_error_Some; rewrite L; discriminate).
  assert (O : forall e, In e (norm_con3 (h3_a (hy l)) ::
    map (fun c => obs_con3 (h3_a (hy l)) (h3_b (hy l)) (fst c) pos (snd c)) (checkpoints3 o)) -> e <= 0).
  { intros e J. apply H. apply in_or_app. left. unfold obstacle_cons3.
    apply in_flat_map. exists (l, (o, pos)). split; [exact I|exact J]. }
  assert (Z : forall p c, placed3 p (0, 0, 0) c = plus3 p c).
  { intros p ((c1 & c2) & c3). unfold placed3, turn3, turn_x, turn_y, turn_z. cbn [fst snd]. rewrite cos_0, sin_0. f_equal.
    f_equal; [f_equal|]; ring. }
  assert (K : forall p c a, dot3 a (add3 c p) = inner3 a (plus3 p c)).
  { intros ((p1 & p2) & p3) ((c1 & c2) & c3) ((a1 & a2) & a3). unfold dot3, add3, inner3, plus3. cbn [fst snd]. ring. }
  apply (bodies3_apart (h3_a (hy l)) (h3_b (hy l)) _ (checkpoints3 s) _ _ (checkpoints3 o)); [| | |exact X|exact Y].
  - pose proof (O _ (or_introl eq_refl)) as N. unfold norm_con3 in N. rewrite dot3_inner in N. lra.
  - intros c r J. rewrite Z.
    assert (V : veh_con3 (h3_a (hy l)) (h3_b (hy l)) c position r sd (h3_eps (hy l)) <= 0).
    { apply H. apply in_or_app. right. unfold vehicle_cons3. apply in_flat_map. exists l. split; [apply in_seq; lia|].
      apply in_map_iff. exists (c, r). split; [reflexivity|exact J]. }
    unfold veh_con3 in V. rewrite K in V. lra.
  - intros c r J. rewrite Z.
    assert (V : obs_con3 (h3_a (hy l)) (h3_b (hy l)) c pos r <= 0).
    { apply O. right. apply in_map_iff. exists (c, r). split; [reflexivity|exact J]. }
    unfold obs_con3 in V. rewrite K in V. lra.
Qed.
Lemma rectangle_limits : forall w h, 0 <= w -> 0 <= h -> limits2 (rectangle w h 0) = ((- (w / 2), w / 2), (- (h / 2), h / 2)).
Proof.
  intros w h W P.
  pose proof (polygon_limits plain_surface (rectangle_base w h) 0 thin ltac:(discriminate)) as (A & B & C & D & E).
    fold (rectangle w h 0) in A, B, C, D, E. destruct (limits2 (rectangle w h 0)) as ((x1 & x2) & (y1 & y2)). cbn [fst snd] in *.
    assert (Q : forall z, hull (vertices2 (rectangle w h 0)) z <-> Rabs (fst z) <= w / 2 /\ Rabs (snd z) <= h / 2).
    { intros z. unfold rectangle, polyhedron. cbn [vertices2]. rewrite hull_turned. rewrite <- rectangle_hull; [|exact W|exact P].
      assert (T : forall y, turned 0 y = y) by (intros (a & b); unfold turned; cbn [fst snd]; rewrite cos_0, sin_0; f_equal; ring).
      split; [intros (u & U & ->); rewrite T; exact U|intros U; exists z; rewrite T; auto]. }
    assert (S1 : forall a b, Rabs a <= w / 2 -> Rabs b <= h / 2 -> x1 <= a <= x2 /\ y1 <= b <= y2).
    { intros a b U V. apply (A (a, b)). apply Q. auto. }
    assert (R0 : forall u, 0 <= u -> Rabs u <= u /\ Rabs (- u) <= u) by (intros u U; rewrite Rabs_Ropp, Rabs_right by lra; lra).
    destruct (R0 (w / 2) ltac:(lra)) as (w1 & w2), (R0 (h / 2) ltac:(lra)) as (h1 & h2).
    pose proof (S1 _ _ w1 h1). pose proof (S1 _ _ w2 h2).
    destruct B as (b & B1 & B2), C as (c & C1 & C2), D as (d & D1 & D2), E as (e & E1 & E2).
    apply Q in B1, C1, D1, E1. destruct B1 as (B1 & _), C1 as (C1 & _), D1 as (_ & D1), E1 as (_ & E1).
    apply Rabs_le_iff in B1, C1, D1, E1. f_equal; f_equal; lra.
Qed.
Theorem in_room_drawn : forall w h rpos s position, 0 <= w -> 0 <= h -> made s ->
  (forall e, In e (room_problem (mkRoom2 (rectangle w h 0) rpos 0 true) s position) -> e <= 0) ->
  forall x, shown (draw_vehicle2 [s] (pose_holonomic position)) x ->
  shown (draw2 (rectangle w h 0) (rpos, 0)) x.
Proof.
  intros w h rpos s position W P M H x X. unfold draw_vehicle2, pose_holonomic in X. cbn [flat_map] in X.
  rewrite app_nil_r in X. apply drawn_in_body in X; [|exact M]. destruct X as (y & Y & ->).
  apply drawn_rectangle; [exact W|exact P|]. unfold room_problem in H. cbn [r_shape r_pos] in H.
  pose proof (rectangle_limits w h W P) as L.
  rewrite L in H. cbn [fst snd] in H.
  assert (V : forall c r, In (c, r) (checkpoints2 s) -> Rabs (fst c + fst position - fst rpos) <= w / 2 - r /\
                                                        Rabs (snd c + snd position - snd rpos) <= h / 2 - r).
  { intros c r I. assert (K : forall e, In e (room_cons (- (w / 2), w / 2, (- (h / 2), h / 2)) rpos c position r) -> e <= 0).
    { intros e J. apply H. apply in_flat_map. exists (c, r). split; [exact I|exact J]. }
    unfold room_cons in K. cbn [fst snd] in K.
    pose proof (K _ (or_introl eq_refl)). pose proof (K _ (or_intror (or_introl eq_refl))).
    pose proof (K _ (or_intror (or_intror (or_introl eq_refl)))). pose proof (K _ (or_intror (or_intror (or_intror (or_introl eq_refl))))).
    split; apply Rabs_le_iff; split; lra. }
  assert (F : forall a B, fst a * fst a + snd a * snd a <= 1 ->
     (forall c r, In (c, r) (checkpoints2 s) -> fst a * (fst c + fst position) + snd a * (snd c + snd position) + r <= B) ->
     fst a * fst (placed position 0 y) + snd a * snd (placed position 0 y) <= B).
  { intros a B N K. apply (body_le a B (checkpoints2 s)); [exact N| |exact Y]. intros c r I. specialize (K c r I).
    unfold placed, moved, turned. cbn [fst snd]. rewrite cos_0, sin_0. lra. }
  unfold in_rect. rewrite Rplus_0_l, cos_0, sin_0.
  pose proof (F (1, 0) (w / 2 + fst rpos)) as F1. pose proof (F (-1, 0) (w / 2 - fst rpos)) as F2.
  pose proof (F (0, 1) (h / 2 + snd rpos)) as F3. pose proof (F (0, -1) (h / 2 - snd rpos)) as F4. cbn [fst snd] in F1, F2, F3, F4.
  assert (G1 := F1 ltac:(lra)). assert (G2 := F2 ltac:(lra)). assert (G3 := F3 ltac:(lra)). assert (G4 := F4 ltac:(lra)).
  clear F F1 F2 F3 F4.
  assert (K1 : forall c r, In (c, r) (checkpoints2 s) -> (- (w / 2 - r) <= fst c + fst position - fst rpos <= w / 2 - r) /\
                                                        (- (h / 2 - r) <= snd c + snd position - snd rpos <= h / 2 - r)).
  { intros c r I. destruct (V c r I) as (A & B). apply Rabs_le_iff in A. apply Rabs_le_iff in B. split; assumption. }
  set (z := placed position 0 y) in *.
  assert (Z1 : 1 * fst z + 0 * snd z <= w / 2 + fst rpos) by (apply G1; intros c r I; destruct (K1 c r I); lra).
  assert (Z2 : -1 * fst z + 0 * snd z <= w / 2 - fst rpos) by (apply G2; intros c r I; destruct (K1 c r I); lra).
  assert (Z3 : 0 * fst z + 1 * snd z <= h / 2 + snd rpos) by (apply G3; intros c r I; destruct (K1 c r I); lra).
  assert (Z4 : 0 * fst z + -1 * snd z <= h / 2 - snd rpos) by (apply G4; intros c r I; destruct (K1 c r I); lra).
  split; apply Rabs_le_iff; split; lra.
Qed.
