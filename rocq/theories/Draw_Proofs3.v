(* The bodies of the classes of shape.py. *)
Require Import Reals List Lra Lia Psatz ZArith.
From Verif Require Import Geom_Model Geom_Spec Geom_Proofs Geom_Proofs2 Geom_Proofs3 Geom_Proofs4.
From Verif Require Import Angle_Model Angle_Proofs Draw_Model Draw_Spec Draw_Proofs Draw_Proofs2.
Import ListNotations.
Open Scope R_scope.

(* ---------- norms ---------- *)
Lemma inner3_CS : forall p q, inner3 p q * inner3 p q <= inner3 p p * inner3 q q.
Proof.
  intros ((a & b) & c) ((d & e) & f). unfold inner3. cbn [fst snd].
  pose proof (Rle_0_sqr (a * e - b * d)). pose proof (Rle_0_sqr (a * f - c * d)). pose proof (Rle_0_sqr (b * f - c * e)).
  unfold Rsqr in *. nra.
Qed.
Lemma inner3_nonneg : forall p, 0 <= inner3 p p.
Proof. intros ((a & b) & c). unfold inner3. cbn [fst snd]. nra. Qed.
Lemma dist3_nonneg : forall p q, 0 <= dist3 p q.
Proof. intros. apply sqrt_pos. Qed.
Lemma dist3_le_iff : forall p q r, 0 <= r -> (dist3 p q <= r <-> inner3 (diff3 p q) (diff3 p q) <= r * r).
Proof.
  intros p q r P. unfold dist3. split; intro H.
  - pose proof (sqrt_pos (inner3 (diff3 p q) (diff3 p q))). rewrite <- (sqrt_sqrt (inner3 (diff3 p q) (diff3 p q))) by apply inner3_nonneg. nra.
  - rewrite <- (sqrt_square r) by exact P. apply sqrt_le_1_alt. exact H.
Qed.
Lemma dist3_sym : forall p q, dist3 p q = dist3 q p.
Proof.
  intros p q. unfold dist3. f_equal. destruct p as ((a & b) & c), q as ((d & e) & f). unfold inner3, diff3. cbn [fst snd]. ring.
Qed.
Lemma dist3_triangle : forall p q r, dist3 p r <= dist3 p q + dist3 q r.
Proof.
  intros p q r. pose proof (dist3_nonneg p q). pose proof (dist3_nonneg q r).
  apply dist3_le_iff; [lra|].
  pose proof (dist3_sqr p q) as A. pose proof (dist3_sqr q r) as B.
  pose proof (inner3_CS (diff3 p q) (diff3 q r)) as CS. rewrite <- A, <- B in CS.
  assert (C : inner3 (diff3 p q) (diff3 q r) <= dist3 p q * dist3 q r).
  { destruct (Rle_dec (inner3 (diff3 p q) (diff3 q r)) 0); [nra|].
    apply Rsqr_incr_0_var; [unfold Rsqr; nra|nra]. }
  replace (inner3 (diff3 p r) (diff3 p r)) with
    (inner3 (diff3 p q) (diff3 p q) + 2 * inner3 (diff3 p q) (diff3 q r) + inner3 (diff3 q r) (diff3 q r)).
  - nra.
  - destruct p as ((? & ?) & ?), q as ((? & ?) & ?), r as ((? & ?) & ?). unfold inner3, diff3. cbn [fst snd]. ring.
Qed.
Lemma dist3_refl : forall p, dist3 p p = 0.
Proof.
  intros ((a & b) & c). unfold dist3, inner3, diff3. cbn [fst snd].
  replace (_ + _ + _) with 0 by ring. apply sqrt_0.
Qed.
(* moving both ends of a segment by vectors of length at most r *)
Lemma dist_mix : forall s p q x y r, 0 <= s <= 1 -> dist p x <= r -> dist q y <= r ->
  dist (between s p q) (between s x y) <= r.
Proof.
  intros s p q x y r S A B.
  assert (E1 : dist (between s p q) (between s x q) = (1 - s) * dist p x).
  { unfold dist. rewrite <- (sqrt_square (1 - s)) by lra. rewrite <- sqrt_mult_alt by nra. f_equal.
    unfold between, Rsqr. cbn [fst snd]. ring. }
  assert (E2 : dist (between s x q) (between s x y) = s * dist q y).
  { unfold dist. transitivity (sqrt (s * s) * sqrt (Rsqr (fst q - fst y) + Rsqr (snd q - snd y)));
      [|rewrite sqrt_square by lra; reflexivity]. rewrite <- sqrt_mult_alt by nra. f_equal.
    unfold between, Rsqr. cbn [fst snd]. ring. }
  pose proof (dist_triangle (between s p q) (between s x q) (between s x y)). rewrite E1, E2 in *.
  pose proof (dist_nonneg p x). pose proof (dist_nonneg q y). nra.
Qed.
Lemma dist3_mix : forall s p q x y r, 0 <= s <= 1 -> dist3 p x <= r -> dist3 q y <= r ->
  dist3 (between3 s p q) (between3 s x y) <= r.
Proof.
  intros s p q x y r S A B.
  assert (E1 : dist3 (between3 s p q) (between3 s x q) = (1 - s) * dist3 p x).
  { unfold dist3. rewrite <- (sqrt_square (1 - s)) by lra. rewrite <- sqrt_mult_alt by nra. f_equal.
    unfold between3, inner3, diff3. cbn [fst snd]. ring. }
  assert (E2 : dist3 (between3 s x q) (between3 s x y) = s * dist3 q y).
  { unfold dist3. transitivity (sqrt (s * s) * sqrt (inner3 (diff3 q y) (diff3 q y)));
      [|rewrite sqrt_square by lra; reflexivity]. rewrite <- sqrt_mult_alt by nra. f_equal.
    unfold between3, inner3, diff3. cbn [fst snd]. ring. }
  pose proof (dist3_triangle (between3 s p q) (between3 s x q) (between3 s x y)). rewrite E1, E2 in *.
  pose proof (dist3_nonneg p x). pose proof (dist3_nonneg q y). nra.
Qed.

(* ---------- one radius for all checkpoints ---------- *)
Lemma body_inflated : forall vs r x, body (map (fun v => (v, r)) vs) x <-> inflated vs r x.
Proof.
  intros vs r x. split.
  - intro H. induction H as [c q x I D | s p q S P IP Q IQ].
    + apply in_map_iff in I. destruct I as (v & E & V). injection E as -> ->. exists c. split; [apply hull_vertex; exact V|exact D].
    + destruct IP as (c & C & D). destruct IQ as (e & E & F). exists (between s c e). split; [apply hull_mix; assumption|].
      apply dist_mix; assumption.
  - intros (c & C & D). revert x D. induction C as [v V | s p q S P IP Q IQ]; intros x D.
    + apply (body_disc _ v r); [|exact D]. apply in_map_iff. exists v. auto.
    + set (e := (fst x - fst (between s p q), snd x - snd (between s p q)) : P2).
      assert (X : x = between s (moved e p) (moved e q)).
      { unfold e, moved, between. cbn [fst snd]. destruct x. cbn [fst snd]. f_equal; ring. }
      assert (DE : forall z, dist z (moved e z) = dist (between s p q) x).
      { intro z. unfold dist. f_equal. unfold e, moved, Rsqr. cbn [fst snd]. ring. }
      rewrite X. apply body_mix; [exact S|apply IP|apply IQ]; rewrite DE; exact D.
Qed.
Definition inflated3 (vs : list P3) (r : R) (x : P3) : Prop := exists c, hull3 vs c /\ dist3 c x <= r.
Lemma body3_inflated : forall vs r x, body3 (map (fun v => (v, r)) vs) x <-> inflated3 vs r x.
Proof.
  intros vs r x. split.
  - intro H. induction H as [c q x I D | s p q S P IP Q IQ].
    + apply in_map_iff in I. destruct I as (v & E & V). injection E as -> ->. exists c. split; [apply hull3_vertex; exact V|exact D].
    + destruct IP as (c & C & D). destruct IQ as (e & E & F). exists (between3 s c e). split; [apply hull3_mix; assumption|].
      apply dist3_mix; assumption.
  - intros (c & C & D). revert x D. induction C as [v V | s p q S P IP Q IQ]; intros x D.
    + apply (body3_ball _ v r); [|exact D]. apply in_map_iff. exists v. auto.
    + fold (between3 s p q) in D. set (e := diff3 x (between3 s p q)).
      assert (X : x = between3 s (plus3 e p) (plus3 e q)).
      { unfold e, plus3, diff3, between3. cbn [fst snd]. destruct x as ((? & ?) & ?). cbn [fst snd]. f_equal; [f_equal|]; ring. }
      assert (DE : forall z, dist3 z (plus3 e z) = dist3 (between3 s p q) x).
      { intro z. unfold dist3. f_equal. unfold e, plus3, diff3, inner3. cbn [fst snd]. ring. }
      rewrite X. apply body3_mix; [exact S|apply IP|apply IQ]; rewrite DE; exact D.
Qed.
Lemma disc_body : forall r x, body [((0, 0), r)] x <-> dist (0, 0) x <= r.
Proof.
  intros r x. change [((0, 0), r)] with (map (fun v : P2 => (v, r)) [(0, 0)]). rewrite body_inflated. split.
  - intros (c & C & D). assert (c = (0, 0)).
    { clear D. induction C as [v [<-|[]] | s p q S P IP Q IQ]; [reflexivity|]. rewrite IP, IQ. unfold between. cbn. f_equal; ring. }
    subst c. exact D.
  - intro D. exists (0, 0). split; [apply hull_vertex; left; reflexivity|exact D].
Qed.
Lemma ball_body : forall r x, body3 [((0, 0, 0), r)] x <-> dist3 (0, 0, 0) x <= r.
Proof.
  intros r x. change [((0, 0, 0), r)] with (map (fun v : P3 => (v, r)) [(0, 0, 0)]). rewrite body3_inflated. split.
  - intros (c & C & D). assert (c = (0, 0, 0)).
    { clear D. induction C as [v [<-|[]] | s p q S P IP Q IQ]; [reflexivity|]. rewrite IP, IQ. cbn. f_equal; [f_equal|]; ring. }
    subst c. exact D.
  - intro D. exists (0, 0, 0). split; [apply hull3_vertex; left; reflexivity|exact D].
Qed.

(* ---------- rectangles and stacked polygons ---------- *)
Lemma mix_abs : forall x a, 0 <= a -> Rabs x <= a -> exists s, 0 <= s <= 1 /\ x = - a + s * (a - - a).
Proof.
  intros x a A X. apply Rabs_le_iff in X. destruct (Req_dec a 0) as [E|N].
  - exists 0. split; [lra|]. subst. lra.
  - exists ((x + a) / (2 * a)). split; [|field; exact N].
    split; [apply Rmult_le_pos; [lra|left; apply Rinv_0_lt_compat; lra]|].
    apply (Rmult_le_reg_r (2 * a)); [lra|]. unfold Rdiv. rewrite Rmult_assoc, Rinv_l by lra. lra.
Qed.
Lemma abs_mix : forall s x y a, 0 <= s <= 1 -> Rabs x <= a -> Rabs y <= a -> Rabs (x + s * (y - x)) <= a.
Proof. intros s x y a S X Y. apply Rabs_le_iff in X. apply Rabs_le_iff in Y. apply Rabs_le_iff. split; nra. Qed.
Lemma rectangle_hull : forall w h x, 0 <= w -> 0 <= h ->
  (hull (rectangle_base w h) x <-> Rabs (fst x) <= w / 2 /\ Rabs (snd x) <= h / 2).
Proof.
  intros w h x W H. rewrite rectangle_base_eq. split.
  - intro V. induction V as [v V | s p q S P IP Q IQ].
    + destruct V as [<-|[<-|[<-|[<-|[]]]]]; cbn [fst snd]; rewrite ?Rabs_Ropp, !Rabs_right by lra; lra.
    + unfold between. cbn [fst snd]. split; apply abs_mix; tauto.
  - intros [A B]. destruct (mix_abs (fst x) (w / 2) ltac:(lra) A) as (s & S & X). destruct (mix_abs (snd x) (h / 2) ltac:(lra) B) as (t & T & Y).
    replace x with (between s (between t (- (w / 2), - (h / 2)) (- (w / 2), h / 2)) (between t (w / 2, - (h / 2)) (w / 2, h / 2))).
    + apply hull_mix; [exact S| |]; apply hull_mix; try exact T; apply hull_vertex; cbn; tauto.
    + destruct x as (x1 & x2). cbn [fst snd] in X, Y. unfold between. cbn [fst snd]. f_equal; [rewrite X|rewrite Y]; ring.
Qed.
Lemma hull_raised : forall base v z (vs : list P3), hull base v -> (forall u, In u base -> In (u, z) vs) -> hull3 vs (v, z).
Proof.
  intros base v z vs H I. induction H as [u U | s p q S P IP Q IQ]; [apply hull3_vertex; auto|].
  pose proof (hull3_mix vs s _ _ S IP IQ) as M. cbn [fst snd] in M. unfold between.
  replace (z + s * (z - z)) with z in M by ring. exact M.
Qed.
Lemma stacked_hull : forall base h x, 0 <= h ->
  (hull3 (stacked base h) x <-> hull base (fst x) /\ Rabs (snd x) <= h / 2).
Proof.
  intros base h x H. split.
  - intro V. induction V as [v V | s p q S P IP Q IQ].
    + unfold stacked in V. apply in_app_or in V. destruct V as [V|V]; apply in_map_iff in V; destruct V as (u & <- & U);
        cbn [fst snd]; (split; [apply hull_vertex; exact U|]).
      * rewrite Rabs_left1 by lra. lra.
      * rewrite Rabs_right by lra. lra.
    + cbn [fst snd]. destruct IP as [P1 P2]. destruct IQ as [Q1 Q2]. split; [|apply abs_mix; assumption].
      pose proof (hull_mix base s _ _ S P1 Q1) as M. exact M.
  - intros [A B]. destruct (mix_abs (snd x) (h / 2) ltac:(lra) B) as (s & S & Z).
    assert (L : hull3 (stacked base h) (fst x, - (h / 2))).
    { apply hull_raised with (base := base); [exact A|]. intros u U. unfold stacked. apply in_or_app. left.
      apply in_map_iff. exists u. split; [f_equal; lra|exact U]. }
    assert (M : hull3 (stacked base h) (fst x, h / 2)).
    { apply hull_raised with (base := base); [exact A|]. intros u U. unfold stacked. apply in_or_app. right.
      apply in_map_iff. exists u. split; [f_equal; lra|exact U]. }
    pose proof (hull3_mix _ s _ _ S L M) as K. cbn [fst snd] in K.
    match type of K with hull3 _ ?p => replace x with p; [exact K|] end.
    destruct x as ((x1 & x2) & x3). cbn [fst snd] in *. f_equal; [f_equal; ring|lra].
Qed.

(* ---------- the classes ---------- *)
Lemma map_rotate : forall th vs, map (rotate th) vs = map (turned th) vs.
Proof. intros. apply map_ext. intro. apply rotate_turned. Qed.
Lemma map_rot3 : forall o vs, map (rot3 o) vs = map (turn3 o) vs.
Proof. intros. apply map_ext. intro. apply rot3_turn3. Qed.
Lemma hull_turned : forall th vs x, hull (map (rotate th) vs) x <-> exists y, hull vs y /\ x = turned th y.
Proof.
  intros th vs x. rewrite map_rotate. split.
  - apply hull_affine_inv. apply turned_affine.
  - intros (y & H & ->). apply hull_affine; [apply turned_affine|exact H].
Qed.
Lemma hull3_turned : forall o vs x, hull3 (map (rot3 o) vs) x <-> exists y, hull3 vs y /\ x = turn3 o y.
Proof.
  intros o vs x. rewrite map_rot3. split.
  - apply hull3_affine_inv. apply turn3_affine.
  - intros (y & H & ->). apply hull3_affine; [apply turn3_affine|exact H].
Qed.
Lemma rectangle_body : forall w h th x, 0 <= w -> 0 <= h ->
  (body (checkpoints2 (rectangle w h th)) x <-> exists c, in_rect (0, 0) w h th c /\ dist c x <= thin).
Proof.
  intros w h th x W H. unfold checkpoints2, rectangle, polyhedron. cbn [family2 vertices2 radius2].
  rewrite body_inflated. unfold inflated. split; intros (c & C & D); exists c; (split; [|exact D]).
  - apply hull_turned in C. destruct C as (y & Y & ->). apply rectangle_hull in Y; [|assumption|assumption].
    unfold in_rect, turned. cbn [fst snd]. pose proof (cs2 th) as Q.
    replace (cos th * (fst y * cos th - snd y * sin th - 0) + sin th * (fst y * sin th + snd y * cos th - 0))
      with (fst y * (cos th * cos th + sin th * sin th)) by ring.
    replace (- sin th * (fst y * cos th - snd y * sin th - 0) + cos th * (fst y * sin th + snd y * cos th - 0))
      with (snd y * (cos th * cos th + sin th * sin th)) by ring. rewrite Q, !Rmult_1_r. exact Y.
  - apply hull_turned. exists (turned (- th) c). split; [|symmetry; apply turned_back].
    apply rectangle_hull; [assumption|assumption|]. unfold in_rect in C. cbn [fst snd] in C. rewrite !Rminus_0_r in C.
    unfold turned. rewrite cos_neg, sin_neg. cbn [fst snd].
    replace (fst c * cos th - snd c * - sin th) with (cos th * fst c + sin th * snd c) by ring.
    replace (fst c * - sin th + snd c * cos th) with (- sin th * fst c + cos th * snd c) by ring. exact C.
Qed.
Lemma ngon_iff : forall r n x, 0 < r -> (3 <= n)%nat -> (hull (regular_vertices r n) x <-> in_ngon r n x).
Proof.
  intros r n x R N. split; [apply ngon_in; [lra|exact N]|apply ngon_out; assumption].
Qed.
Lemma regular_body : forall r n th x, 0 < r -> (3 <= n)%nat ->
  (body (checkpoints2 (regular r n th)) x <-> exists c, in_ngon r n c /\ dist (turned th c) x <= thin).
Proof.
  intros r n th x W H. unfold checkpoints2, regular, polyhedron. cbn [family2 vertices2 radius2].
  rewrite body_inflated. unfold inflated. split; intros (c & C & D).
  - apply hull_turned in C. destruct C as (y & Y & ->). exists y. split; [apply ngon_iff; assumption|exact D].
  - exists (turned th c). split; [apply hull_turned; exists c; split; [apply ngon_iff; assumption|reflexivity]|exact D].
Qed.
(* the polygon lies between the two circles *)
Lemma ngon_circles : forall r n x, 0 < r -> (3 <= n)%nat ->
  (dist (0, 0) x <= r * cos (PI / INR n) -> in_ngon r n x) /\ (in_ngon r n x -> dist (0, 0) x <= r).
Proof.
  intros r n x R N. pose proof (ngon_angle n N) as A. pose proof PI_RGT_0. split.
  - intros D l L. set (b := 2 * PI * INR l / INR n).
    pose proof (inner_le_dist (sin b, cos b) (0, 0) x) as I. cbn [fst snd] in I.
    assert (Q : sin b * sin b + cos b * cos b <= 1) by (pose proof (cs2 b); lra). specialize (I Q). lra.
  - intro I. apply ngon_iff in I; [|assumption|assumption]. rewrite regular_vertices_eq in I by exact N.
    assert (F : inflated [(0, 0)] r x); [|destruct F as (c & C & D)].
    + apply body_inflated. clear A. induction I as [v V | s p q S P IP Q IQ]; [|apply body_mix; assumption].
      apply (body_disc _ (0, 0) r); [left; reflexivity|]. apply in_map_iff in V. destruct V as (k & <- & _).
      apply dist_le_iff; [lra|]. unfold nv, Rsqr. cbn [fst snd]. set (a := INR (2 * k + 1) * PI / INR n).
      pose proof (cs2 a). nra.
    + apply disc_body. apply body_inflated with (vs := [(0, 0)]). exists c. split; assumption.
Qed.
Lemma beam_body : forall w h th x, 0 <= w -> 0 <= h ->
  (body (checkpoints2 (beam w h th)) x <->
   exists t, Rabs t <= w / 2 /\ dist (t * cos th, t * sin th) x <= h / 2).
Proof.
  intros w h th x W H. unfold checkpoints2, beam, polyhedron. cbn [family2 vertices2 radius2].
  rewrite body_inflated. unfold inflated. split.
  - intros (c & C & D). apply hull_turned in C. destruct C as (y & Y & ->).
    assert (Z : Rabs (fst y) <= w / 2 /\ snd y = 0).
    { clear D. induction Y as [v V | s p q S P IP Q IQ].
      - destruct V as [<-|[<-|[]]]; cbn [fst snd]; rewrite ?Rabs_Ropp, Rabs_right by lra; lra.
      - unfold between. cbn [fst snd]. destruct IP as [P1 P2]. destruct IQ as [Q1 Q2]. split; [apply abs_mix; assumption|].
        rewrite P2, Q2. ring. }
    destruct Z as [Z1 Z2]. exists (fst y). split; [exact Z1|]. unfold turned in D. rewrite Z2, !Rmult_0_l, Rminus_0_r, Rplus_0_r in D. exact D.
  - intros (t & T & D). exists (t * cos th, t * sin th). split; [|exact D]. apply hull_turned. exists (t, 0). split.
    + destruct (mix_abs t (w / 2) ltac:(lra) T) as (s & S & X).
      replace (t, 0) with (between s (- (w / 2), 0) (w / 2, 0)).
      * apply hull_mix; [exact S| |]; apply hull_vertex; cbn; tauto.
      * unfold between. cbn [fst snd]. f_equal; [rewrite X|]; ring.
    + unfold turned. cbn [fst snd]. f_equal; ring.
Qed.
Lemma solid_body : forall vs ss o r x,
  (body3 (checkpoints3 (polyhedron3 vs ss o r)) x <-> exists c, hull3 vs c /\ dist3 (turn3 o c) x <= r).
Proof.
  intros vs ss o r x. unfold checkpoints3, polyhedron3. cbn [ball3 vertices3 radius3].
  rewrite body3_inflated. unfold inflated3. split; intros (c & C & D).
  - apply hull3_turned in C. destruct C as (y & Y & ->). exists y. split; assumption.
  - exists (turn3 o c). split; [apply hull3_turned; exists c; split; [assumption|reflexivity]|exact D].
Qed.
Lemma cuboid_body : forall w d h o x, 0 <= w -> 0 <= d -> 0 <= h ->
  (body3 (checkpoints3 (cuboid w d h o)) x <->
   exists c, Rabs (fst (fst c)) <= w / 2 /\ Rabs (snd (fst c)) <= d / 2 /\ Rabs (snd c) <= h / 2 /\
             dist3 (turn3 o c) x <= thin).
Proof.
  intros w d h o x W D H. unfold cuboid. rewrite solid_body. split; intros (c & C).
  - destruct C as [C E]. apply stacked_hull in C; [|exact H]. destruct C as [C Z]. apply rectangle_hull in C; [|assumption|assumption].
    exists c. tauto.
  - exists c. split; [|tauto]. apply stacked_hull; [exact H|]. split; [|tauto]. apply rectangle_hull; tauto.
Qed.
Lemma prism_body : forall r h n o x, 0 < r -> 0 <= h -> (3 <= n)%nat ->
  (body3 (checkpoints3 (prism r h n o)) x <->
   exists c, in_ngon r n (fst c) /\ Rabs (snd c) <= h / 2 /\ dist3 (turn3 o c) x <= thin).
Proof.
  intros r h n o x R H N. unfold prism. rewrite solid_body. split; intros (c & C).
  - destruct C as [C E]. apply stacked_hull in C; [|exact H]. destruct C as [C Z]. apply ngon_iff in C; [|assumption|assumption].
    exists c. tauto.
  - exists c. split; [|tauto]. apply stacked_hull; [exact H|]. split; [|tauto]. apply ngon_iff; tauto.
Qed.
Lemma flat_hull : forall base x, hull3 (map (fun v : P2 => (v, 0)) base) x <-> hull base (fst x) /\ snd x = 0.
Proof.
  intros base x. split.
  - intro V. induction V as [v V | s p q S P IP Q IQ].
    + apply in_map_iff in V. destruct V as (u & <- & U). cbn [fst snd]. split; [apply hull_vertex; exact U|reflexivity].
    + cbn [fst snd]. destruct IP as [P1 P2]. destruct IQ as [Q1 Q2]. split; [exact (hull_mix base s _ _ S P1 Q1)|]. rewrite P2, Q2. ring.
  - intros [A B]. replace x with (fst x, 0) by (rewrite <- B; destruct x; reflexivity).
    apply hull_raised with (base := base); [exact A|]. intros u U. apply in_map_iff. exists u. auto.
Qed.
(* a plate of a polygon: the points within half its height of the polygon *)
Lemma plate_body : forall gs vs th r height o s x, plate (polyhedron gs vs th r) height o = Some s ->
  (body3 (checkpoints3 s) x <->
   exists c, hull vs c /\ dist3 (turn3 o (turned th c, 0)) x <= height / 2).
Proof.
  intros gs vs th r height o s x E. unfold plate, polyhedron in E. cbn [family2] in E. injection E as <-.
  rewrite solid_body. cbn [vertices2]. split.
  - intros (c & C & D). apply flat_hull in C. destruct C as [C Z]. apply hull_turned in C. destruct C as (y & Y & F).
    exists y. split; [exact Y|]. rewrite <- F, <- Z. destruct c. cbn [fst snd]. cbn [fst snd] in *. lra.
  - intros (c & C & D). exists (turned th c, 0). split; [|lra]. apply flat_hull. cbn [fst snd]. split; [|reflexivity].
    apply hull_turned. exists c. auto.
Qed.
