Require Import Reals List ZArith Lra Lia Bool Psatz.
Require Import Verif.Geom_Model Verif.Geom_Spec Verif.Geom_Proofs Verif.Geom_Proofs2.
Import ListNotations.
Open Scope bool_scope.
Open Scope R_scope.

Lemma Rabs_le_iff : forall u v, Rabs u <= v <-> (- v <= u /\ u <= v).
Proof. intros u v. unfold Rabs; destruct Rcase_abs; split; intros; lra. Qed.

Lemma dist_triangle : forall p q r, dist p r <= dist p q + dist q r.
Proof.
  intros [a b] [c d] [e f]. unfold dist, Rsqr; cbn [fst snd].
  replace ((a - e) * (a - e) + (b - f) * (b - f)) with (((a - c) + (c - e)) ^ 2 + (((b - d) + (d - f)) ^ 2 + 0)) by ring.
  replace ((a - c) * (a - c) + (b - d) * (b - d)) with ((a - c) ^ 2 + ((b - d) ^ 2 + 0)) by ring.
  replace ((c - e) * (c - e) + (d - f) * (d - f)) with ((c - e) ^ 2 + ((d - f) ^ 2 + 0)) by ring.
  pose proof (pow2_ge_0 (b - d)); pose proof (pow2_ge_0 (d - f)); pose proof (pow2_ge_0 ((b - d) + (d - f))).
  apply norm_triangle; try lra. apply norm_triangle; try lra. rewrite sqrt_0; lra.
Qed.
Lemma dist_refl : forall p, dist p p = 0.
Proof. intros; unfold dist; rewrite !Rminus_eq_0, Rsqr_0, Rplus_0_l; apply sqrt_0. Qed.

(* ---------- rectangles ---------- *)

Lemma turned0 : forall p, turned 0 p = p.
Proof. intros [a b]; unfold turned; cbn [fst snd]; rewrite cos_0, sin_0; f_equal; ring. Qed.
Lemma rlimits0 : forall s, rth s = 0 -> 0 <= rw s -> 0 <= rh s ->
  rlimits s = ((- (rw s / 2), rw s / 2), (- (rh s / 2), rh s / 2)).
Proof.
  intros [w h th] E Hw Hh. cbn [rw rh rth] in *. subst th. unfold rlimits; cbn [rw rh rth].
  rewrite rectangle_vertices_eq. cbn [map]. rewrite !turned0.
  unfold canvas_limits, amin, amax, xs, ys, row_min, row_max; cbn [map fst snd fold_right].
  apply f_equal2; apply f_equal2; unfold Rmin, Rmax; repeat destruct Rle_dec; lra.
Qed.
Lemma in_interval_iff : forall a x b, in_interval a x b = true <-> a <= x <= b.
Proof. intros; unfold in_interval; rewrite andb_true_iff, !Rleb_le; tauto. Qed.

Lemma overlap_iff : forall s1 p1 s2 p2, rth s1 = 0 -> rth s2 = 0 ->
  0 <= rw s1 -> 0 <= rh s1 -> 0 <= rw s2 -> 0 <= rh s2 ->
  exists b, rectangles_overlap s1 p1 s2 p2 = Some b /\
   (b = true <-> exists x, in_box p1 (rw s1) (rh s1) x /\ in_box p2 (rw s2) (rh s2) x).
Proof.
  intros s1 [u1 v1] s2 [u2 v2] T1 T2 W1 H1 W2 H2. unfold rectangles_overlap.
  rewrite (proj2 (Reqb0_eq _) T1), (proj2 (Reqb0_eq _) T2). cbn [andb].
  rewrite !rlimits0 by auto. eexists; split; [reflexivity |].
  unfold limits_overlap; cbn [fst snd]. rewrite !andb_true_iff, !Rleb_le.
  unfold in_box; cbn [fst snd]. split.
  - intros [[[A B] C] D].
    exists (Rmax (- (rw s1 / 2) + u1) (- (rw s2 / 2) + u2), Rmax (- (rh s1 / 2) + v1) (- (rh s2 / 2) + v2)); cbn [fst snd].
    rewrite !Rabs_le_iff. unfold Rmax; repeat destruct Rle_dec; lra.
  - intros [[x y] [[A B] [C D]]]; cbn [fst snd] in *. rewrite Rabs_le_iff in *. lra.
Qed.
Lemma overlap_raises : forall s1 p1 s2 p2,
  rectangles_overlap s1 p1 s2 p2 = None <-> (rth s1 <> 0 \/ rth s2 <> 0).
Proof.
  intros. unfold rectangles_overlap.
  destruct (Reqb0 (rth s1)) eqn:E1; destruct (Reqb0 (rth s2)) eqn:E2; cbn [andb];
    split; intros H; auto; try discriminate;
    try (destruct H as [H | H]; exfalso; apply H; apply Reqb0_eq; auto).
  - right; intros E; apply Reqb0_eq in E; congruence.
  - left; intros E; apply Reqb0_eq in E; congruence.
  - left; intros E; apply Reqb0_eq in E; congruence.
Qed.
Lemma limits_overlap_sym : forall l1 p1 l2 p2, limits_overlap l1 p1 l2 p2 = limits_overlap l2 p2 l1 p1.
Proof.
  intros [[a b] [c d]] p1 [[e f] [g h]] p2; unfold limits_overlap.
  repeat match goal with |- context [Rleb ?x ?y] => destruct (Rleb x y) end; reflexivity.
Qed.
Lemma overlap_sym : forall s1 p1 s2 p2, rectangles_overlap s1 p1 s2 p2 = rectangles_overlap s2 p2 s1 p1.
Proof.
  intros; unfold rectangles_overlap. rewrite andb_comm, limits_overlap_sym. reflexivity.
Qed.
Lemma center_spec : forall s1 p1 s2 p2, rth s1 = 0 -> rth s2 = 0 ->
  0 <= rw s1 -> 0 <= rh s1 -> 0 <= rw s2 -> 0 <= rh s2 ->
  match overlap_center s1 p1 s2 p2 with
  | Some c => in_box p1 (rw s1) (rh s1) c /\ in_box p2 (rw s2) (rh s2) c /\
      (* the centre of the common part: it halves every common point's mirror *)
      forall x, in_box p1 (rw s1) (rh s1) x -> in_box p2 (rw s2) (rh s2) x ->
        in_box p1 (rw s1) (rh s1) (2 * fst c - fst x, 2 * snd c - snd x) /\
        in_box p2 (rw s2) (rh s2) (2 * fst c - fst x, 2 * snd c - snd x)
  | None => forall x, ~ (in_box p1 (rw s1) (rh s1) x /\ in_box p2 (rw s2) (rh s2) x)
  end.
Proof.
  intros s1 [u1 v1] s2 [u2 v2] T1 T2 W1 H1 W2 H2. unfold overlap_center.
  rewrite !rlimits0 by auto. unfold limits_overlap; cbn [fst snd].
  destruct (Rleb _ _ && _ && _ && _) eqn:E.
  - rewrite !andb_true_iff, !Rleb_le in E. destruct E as [[[A B] C] D].
    unfold in_box; cbn [fst snd]. split; [| split].
    + rewrite !Rabs_le_iff. unfold Rmax, Rmin; repeat destruct Rle_dec; lra.
    + rewrite !Rabs_le_iff. unfold Rmax, Rmin; repeat destruct Rle_dec; lra.
    + intros [x y]; cbn [fst snd]. rewrite !Rabs_le_iff. intros.
      unfold Rmax, Rmin; repeat destruct Rle_dec; lra.
  - intros [x y] [[A B] [C D]]; cbn [fst snd] in *. rewrite Rabs_le_iff in *.
    rewrite !andb_false_iff, !Rleb_gt in E. lra.
Qed.

(* ---------- circle against polygon ---------- *)

Lemma foot_on_line : forall c p q, p <> q ->
  exists s, foot c (p, q) = between s p q /\
    (fst c - fst (foot c (p, q))) * (fst q - fst p) + (snd c - snd (foot c (p, q))) * (snd q - snd p) = 0.
Proof.
  intros [cx cy] [x1 y1] [x2 y2] Hne. pose proof (line_den_pos _ _ Hne) as HD; cbn [fst snd] in HD.
  set (D := (y2 - y1) ^ 2 + (x2 - x1) ^ 2) in *.
  exists (((cx - x1) * (x2 - x1) + (cy - y1) * (y2 - y1)) / D).
  unfold foot, between; cbn [fst snd]. fold D. split.
  - f_equal; field_simplify_eq; try lra; unfold D; ring.
  - ring.
Qed.

Lemma shift_moved : forall d v, shift d v = moved d v.
Proof. reflexivity. Qed.

Lemma small_dist : forall p q, Rabs (fst p - fst q) <= eps6 -> Rabs (snd p - snd q) <= eps6 -> dist p q <= 2 * eps6.
Proof.
  intros p q H1 H2. apply dist_le_iff; [unfold eps6; lra |].
  rewrite Rabs_le_iff in *. unfold Rsqr. set (u := fst p - fst q) in *; set (v := snd p - snd q) in *.
  assert (0 < eps6) by (unfold eps6; lra). nra.
Qed.

Lemma near_segment : forall p q x s, x = between s p q ->
  ((fst p - eps6 <= fst x <= fst q + eps6 /\ snd p - eps6 <= snd x <= snd q + eps6) \/
   (fst q - eps6 <= fst x <= fst p + eps6 /\ snd q - eps6 <= snd x <= snd p + eps6)) ->
  exists y, on_segment p q y /\ dist x y <= 2 * eps6.
Proof.
  intros [x1 y1] [x2 y2] x s Hx Hb. assert (He : 0 < eps6) by (unfold eps6; lra).
  destruct (Rlt_or_le s 0) as [Hs | Hs]; [| destruct (Rle_or_lt s 1) as [Hs' | Hs']].
  - exists (x1, y1). split.
    { exists 0. split; [lra |]. unfold between; cbn [fst snd]; f_equal; ring. }
    subst x. unfold between in *; cbn [fst snd] in *.
    assert (Hp : forall u v, u - eps6 <= u + s * (v - u) <= v + eps6 \/ v - eps6 <= u + s * (v - u) <= u + eps6 ->
       Rabs (u + s * (v - u) - u) <= eps6).
    { intros u v H. rewrite Rabs_le_iff. destruct (Rle_or_lt u v); destruct H; nra. }
    apply small_dist; cbn [fst snd]; apply Hp; tauto.
  - exists x. split; [exists s; split; auto | rewrite dist_refl; lra].
  - exists (x2, y2). split.
    { exists 1. split; [lra |]. unfold between; cbn [fst snd]; f_equal; ring. }
    subst x. unfold between in *; cbn [fst snd] in *.
    assert (Hp : forall u v, u - eps6 <= u + s * (v - u) <= v + eps6 \/ v - eps6 <= u + s * (v - u) <= u + eps6 ->
       Rabs (u + s * (v - u) - v) <= eps6).
    { intros u v H. rewrite Rabs_le_iff. destruct (Rle_or_lt u v); destruct H; nra. }
    apply small_dist; cbn [fst snd]; apply Hp; tauto.
Qed.

Lemma side_hit_iff : forall c r p q,
  side_hit c r (p, q) = true <->
  (((fst p - eps6 <= fst (foot c (p, q)) <= fst q + eps6 /\ snd p - eps6 <= snd (foot c (p, q)) <= snd q + eps6) \/
    (fst q - eps6 <= fst (foot c (p, q)) <= fst p + eps6 /\ snd q - eps6 <= snd (foot c (p, q)) <= snd p + eps6)) /\
   dist c (foot c (p, q)) <= r).
Proof.
  intros c r [x1 y1] [x2 y2]. unfold side_hit.
  destruct (foot c ((x1, y1), (x2, y2))) as [x4 y4]. cbn [fst snd].
  rewrite andb_true_iff, orb_true_iff, !andb_true_iff, !Rleb_le, dist2_dist. tauto.
Qed.

Lemma circle_sound : forall c r vs pos, (forall p q, edge vs p q -> p <> q) ->
  circle_polyhedron_intersection c r vs pos = true ->
  exists x, boundary (map (moved pos) vs) x /\ dist c x <= r + 2 * eps6.
Proof.
  intros c r vs pos Hne H. unfold circle_polyhedron_intersection in H. apply orb_prop in H.
  assert (He : 0 < eps6) by (unfold eps6; lra).
  destruct H as [H | H]; apply existsb_exists in H.
  - destruct H as [v [Hv Hr]]. apply Rleb_le in Hr. rewrite dist2_dist in Hr.
    assert (Hin : In v (map (shift pos) vs)).
    { rewrite <- (firstn_skipn 2 (map (shift pos) vs)). apply in_or_app; auto. }
    change (map (shift pos) vs) with (map (moved pos) vs) in *.
    exists v; split; [| lra].
    apply In_nth_error in Hin as [k Hk].
    assert (HL : (k < length (map (moved pos) vs))%nat) by (apply nth_error_Some; congruence).
    destruct (nth_error (map (moved pos) vs) (S k mod length (map (moved pos) vs))) as [q |] eqn:E.
    + exists v, q. split; [exists k; auto |]. exists 0. split; [lra |].
      unfold between. destruct v; cbn [fst snd]; f_equal; ring.
    + apply nth_error_None in E. pose proof (Nat.mod_upper_bound (S k) (length (map (moved pos) vs))). lia.
  - destruct H as [[p q] [Hi Hh]]. apply sides_edge in Hi.
    apply side_hit_iff in Hh as [Hb Hr].
    assert (Hpq : p <> q).
    { apply edge_map_inv in Hi as [p' [q' [He' [-> ->]]]]. specialize (Hne _ _ He'). intros E. apply Hne.
      destruct p', q', pos; unfold shift in E; cbn [fst snd] in E. injection E as E1 E2. f_equal; lra. }
    destruct (foot_on_line c p q Hpq) as [s [Hs _]].
    destruct (near_segment _ _ _ _ Hs Hb) as [y [Hy Hd]].
    exists y. split; [exists p, q; split; auto |].
    pose proof (dist_triangle c (foot c (p, q)) y). lra.
Qed.

Lemma circle_vertex : forall c r vs pos k v, (k < 2)%nat -> nth_error vs k = Some v ->
  dist c (moved pos v) <= r -> circle_polyhedron_intersection c r vs pos = true.
Proof.
  intros c r vs pos k v Hk Hv Hd. unfold circle_polyhedron_intersection. apply orb_true_intro; left.
  apply existsb_exists. exists (moved pos v). split.
  - assert (HN : nth_error (firstn 2 (map (shift pos) vs)) k = Some (moved pos v)).
    { destruct vs as [| a [| b vs]]; destruct k as [| [| k]]; simpl in *; try discriminate; try lia;
        injection Hv as <-; auto. }
    eapply nth_error_In; eassumption.
  - apply Rleb_le. rewrite dist2_dist. auto.
Qed.

(* the foot of the perpendicular is the only point of the line that is
   perpendicularly below c *)
Lemma foot_unique : forall c p q x, p <> q -> on_line p q x ->
  (fst c - fst x) * (fst q - fst p) + (snd c - snd x) * (snd q - snd p) = 0 -> foot c (p, q) = x.
Proof.
  intros c p q x Hne [t ->] Hx. destruct (foot_on_line c p q Hne) as [s [Hs Ho]].
  rewrite Hs in Ho |- *. unfold between in *; cbn [fst snd] in *.
  pose proof (line_den_pos _ _ Hne) as HD.
  assert (Hst : (s - t) * ((snd q - snd p) ^ 2 + (fst q - fst p) ^ 2) = 0) by lra.
  apply Rmult_integral in Hst as [Hst | Hst]; [| lra].
  replace s with t by lra. reflexivity.
Qed.
Lemma circle_edge : forall c r vs pos p q x, edge vs p q -> p <> q ->
  0 <= (fst q - fst p) * (snd q - snd p) ->
  on_segment (moved pos p) (moved pos q) x ->
  (fst c - fst x) * (fst q - fst p) + (snd c - snd x) * (snd q - snd p) = 0 ->
  dist c x <= r -> circle_polyhedron_intersection c r vs pos = true.
Proof.
  intros c r vs pos p q x He Hne Hm Hx Ho Hd. unfold circle_polyhedron_intersection. apply orb_true_intro; right.
  apply existsb_exists. exists (moved pos p, moved pos q). split.
  - apply sides_edge. apply (edge_map (shift pos)). auto.
  - apply side_hit_iff.
    assert (Hne' : moved pos p <> moved pos q).
    { intros E. apply Hne. destruct p, q, pos; unfold moved in E; cbn [fst snd] in E. injection E as E1 E2. f_equal; lra. }
    rewrite (foot_unique c _ _ x); auto.
    + split; auto. destruct Hx as [s [Hs ->]]. assert (Hp6 : 0 < eps6) by (unfold eps6; lra).
      unfold between, moved; cbn [fst snd]. set (dx := fst q - fst p) in *. set (dy := snd q - snd p) in *.
      replace (fst q + fst pos - (fst p + fst pos)) with dx by (unfold dx; ring).
      replace (snd q + snd pos - (snd p + snd pos)) with dy by (unfold dy; ring).
      replace (fst q + fst pos) with (fst p + fst pos + dx) by (unfold dx; ring).
      replace (snd q + snd pos) with (snd p + snd pos + dy) by (unfold dy; ring).
      destruct (Rle_or_lt 0 dx) as [A | A]; destruct (Rle_or_lt 0 dy) as [B | B].
      * left. split; nra.
      * assert (dx = 0) by nra. right. split; nra.
      * assert (dy = 0) by nra. right. split; nra.
      * right. split; nra.
    + destruct Hx as [s [Hs ->]]. exists s; auto.
    + unfold moved; cbn [fst snd]. lra.
Qed.

(* disc against upright rectangle *)
Lemma sq_mono : forall a b, 0 <= a <= b -> a * a <= b * b.
Proof. intros; nra. Qed.
Lemma sq_pos : forall a, 0 <= a * a.
Proof. intros; apply Rle_0_sqr. Qed.

Lemma circle_upright : forall w h pos c r, 0 < w -> 0 < h -> 0 <= r ->
  (exists x, in_box pos w h x /\ dist c x <= r) ->
  (fst pos - w / 2 <= fst c \/ Rabs (snd c - snd pos) <= h / 2) ->
  circle_poly c r (rectangle_vertices w h 0) pos = true.
Proof.
  intros w h [px py] [cx cy] r Hw Hh Hr [[x y] [[Hx Hy] Hd]] Hc. cbn [fst snd] in *.
  apply dist_le_iff in Hd; auto. cbn [fst snd] in Hd. unfold Rsqr in Hd.
  unfold circle_poly. apply orb_true_intro.
  rewrite Rabs_le_iff in *.
  assert (HV : rectangle_vertices w h 0 = [(w / 2, h / 2); (w / 2, - (h / 2)); (- (w / 2), - (h / 2)); (- (w / 2), h / 2)]).
  { rewrite rectangle_vertices_eq. cbn [map]. rewrite !turned0. reflexivity. }
  assert (HE : forall a b p q, nth_error [(w / 2, h / 2); (w / 2, - (h / 2)); (- (w / 2), - (h / 2)); (- (w / 2), h / 2)] a = Some p ->
     nth_error [(w / 2, h / 2); (w / 2, - (h / 2)); (- (w / 2), - (h / 2)); (- (w / 2), h / 2)] b = Some q ->
     (a < 4)%nat -> (b = S a mod 4)%nat -> edge (rectangle_vertices w h 0) p q).
  { intros a b p q Ha Hb H4 Hm. rewrite HV. exists a. split; [simpl; lia |]. split; auto.
    change (length _) with 4%nat. rewrite <- Hm. auto. }
  destruct (Rle_or_lt (Rabs (cx - px)) (w / 2)) as [Ix | Ix];
  destruct (Rle_or_lt (Rabs (cy - py)) (h / 2)) as [Iy | Iy].
  - left. apply in_rectangle_iff; auto. unfold in_rect; cbn [fst snd]. rewrite cos_0, sin_0.
    replace (1 * (cx - px) + 0 * (cy - py)) with (cx - px) by ring.
    replace (-0 * (cx - px) + 1 * (cy - py)) with (cy - py) by ring.
    replace ((w + 2 * 0) / 2) with (w / 2) by field. replace ((h + 2 * 0) / 2) with (h / 2) by field. auto.
  - right. rewrite Rabs_le_iff in Ix.
    destruct (Rle_or_lt cy py) as [S | S].
    + rewrite Rabs_left1 in Iy by lra.
      apply (circle_edge _ _ _ _ (w / 2, - (h / 2)) (- (w / 2), - (h / 2)) (cx, py - h / 2)); cbn [fst snd].
      * apply (HE 1%nat 2%nat); auto.
      * intros E; injection E; lra.
      * lra.
      * exists ((px + w / 2 - cx) / w). split.
        -- split; [apply Rmult_le_pos; [lra | apply Rlt_le, Rinv_0_lt_compat; auto] |].
           apply (Rmult_le_reg_r w); auto. unfold Rdiv. rewrite Rmult_assoc, Rinv_l; lra.
        -- unfold between, moved; cbn [fst snd]; f_equal; field; lra.
      * lra.
      * apply dist_le_iff; auto; cbn [fst snd]; unfold Rsqr. pose proof (sq_mono (py - h / 2 - cy) (y - cy)); pose proof (sq_pos (cx - x)); lra.
    + rewrite Rabs_pos_eq in Iy by lra.
      apply (circle_edge _ _ _ _ (- (w / 2), h / 2) (w / 2, h / 2) (cx, py + h / 2)); cbn [fst snd].
      * apply (HE 3%nat 0%nat); auto.
      * intros E; injection E; lra.
      * lra.
      * exists ((cx - px + w / 2) / w). split.
        -- split; [apply Rmult_le_pos; [lra | apply Rlt_le, Rinv_0_lt_compat; auto] |].
           apply (Rmult_le_reg_r w); auto. unfold Rdiv. rewrite Rmult_assoc, Rinv_l; lra.
        -- unfold between, moved; cbn [fst snd]; f_equal; field; lra.
      * lra.
      * apply dist_le_iff; auto; cbn [fst snd]; unfold Rsqr. pose proof (sq_mono (cy - (py + h / 2)) (cy - y)); pose proof (sq_pos (cx - x)); lra.
  - right. rewrite Rabs_le_iff in Iy.
    destruct (Rle_or_lt cx px) as [S | S].
    + rewrite Rabs_left1 in Ix by lra.
      apply (circle_edge _ _ _ _ (- (w / 2), - (h / 2)) (- (w / 2), h / 2) (px - w / 2, cy)); cbn [fst snd].
      * apply (HE 2%nat 3%nat); auto.
      * intros E; injection E; lra.
      * lra.
      * exists ((cy - py + h / 2) / h). split.
        -- split; [apply Rmult_le_pos; [lra | apply Rlt_le, Rinv_0_lt_compat; auto] |].
           apply (Rmult_le_reg_r h); auto. unfold Rdiv. rewrite Rmult_assoc, Rinv_l; lra.
        -- unfold between, moved; cbn [fst snd]; f_equal; field; lra.
      * lra.
      * apply dist_le_iff; auto; cbn [fst snd]; unfold Rsqr. pose proof (sq_mono (px - w / 2 - cx) (x - cx)); pose proof (sq_pos (cy - y)); lra.
    + rewrite Rabs_pos_eq in Ix by lra.
      apply (circle_edge _ _ _ _ (w / 2, h / 2) (w / 2, - (h / 2)) (px + w / 2, cy)); cbn [fst snd].
      * apply (HE 0%nat 1%nat); auto.
      * intros E; injection E; lra.
      * lra.
      * exists ((py + h / 2 - cy) / h). split.
        -- split; [apply Rmult_le_pos; [lra | apply Rlt_le, Rinv_0_lt_compat; auto] |].
           apply (Rmult_le_reg_r h); auto. unfold Rdiv. rewrite Rmult_assoc, Rinv_l; lra.
        -- unfold between, moved; cbn [fst snd]; f_equal; field; lra.
      * lra.
      * apply dist_le_iff; auto; cbn [fst snd]; unfold Rsqr. pose proof (sq_mono (cx - (px + w / 2)) (cx - x)); pose proof (sq_pos (cy - y)); lra.
  - right. destruct Hc as [Hc | Hc]; [| rewrite <- Rabs_le_iff in Hc; lra].
    assert (Hcx : px + w / 2 < cx) by (revert Ix; unfold Rabs; destruct Rcase_abs; lra).
    destruct (Rle_or_lt cy py) as [S | S].
    + rewrite Rabs_left1 in Iy by lra.
      apply (circle_vertex _ _ _ _ 1 (w / 2, - (h / 2))); [lia | rewrite HV; reflexivity |].
      apply dist_le_iff; auto. unfold moved, Rsqr; cbn [fst snd].
      pose proof (sq_mono (py - h / 2 - cy) (y - cy)); pose proof (sq_mono (cx - (px + w / 2)) (cx - x)); lra.
    + rewrite Rabs_pos_eq in Iy by lra.
      apply (circle_vertex _ _ _ _ 0 (w / 2, h / 2)); [lia | rewrite HV; reflexivity |].
      apply dist_le_iff; auto. unfold moved, Rsqr; cbn [fst snd].
      pose proof (sq_mono (cy - (py + h / 2)) (cy - y)); pose proof (sq_mono (cx - (px + w / 2)) (cx - x)); lra.
Qed.
