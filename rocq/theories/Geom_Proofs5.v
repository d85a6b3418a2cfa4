Require Import Reals List ZArith Lra Lia Bool Psatz.
Require Import Verif.Geom_Model Verif.Geom_Spec Verif.Geom_Proofs Verif.Geom_Proofs2 Verif.Geom_Proofs3 Verif.Geom_Proofs4.
Import ListNotations.
Open Scope bool_scope.
Open Scope R_scope.

Lemma touching_missed : exists p1 p2 p3 p4 x,
  on_segment p1 p2 x /\ on_segment p3 p4 x /\ intersect_line_segments p1 p2 p3 p4 = false.
Proof.
  exists (0, 0), (2, 0), (1, 0), (1, -1), (1, 0). split; [| split].
  - exists (1 / 2). split; [lra |]. unfold between; cbn [fst snd]; f_equal; field.
  - exists 0. split; [lra |]. unfold between; cbn [fst snd]; f_equal; field.
  - unfold intersect_line_segments.
    replace (order_is_ccw (0, 0) (2, 0) (1, 0)) with false by (symmetry; apply ccw_area_f; unfold area; cbn [fst snd]; lra).
    replace (order_is_ccw (0, 0) (2, 0) (1, -1)) with false by (symmetry; apply ccw_area_f; unfold area; cbn [fst snd]; lra).
    apply andb_false_r.
Qed.

Lemma side_miss : forall c r p q x, p <> q -> on_line p q x ->
  (fst c - fst x) * (fst q - fst p) + (snd c - snd x) * (snd q - snd p) = 0 ->
  ~ ((fst p - eps6 <= fst x <= fst q + eps6 /\ snd p - eps6 <= snd x <= snd q + eps6) \/
     (fst q - eps6 <= fst x <= fst p + eps6 /\ snd q - eps6 <= snd x <= snd p + eps6)) ->
  side_hit c r (p, q) = false.
Proof.
  intros c r p q x Hne Hl Ho Hb. apply not_true_is_false. intros H. apply side_hit_iff in H as [H _].
  rewrite (foot_unique c p q x) in H; auto.
Qed.
Lemma vertex_miss : forall c r v, 0 <= r -> r * r < Rsqr (fst c - fst v) + Rsqr (snd c - snd v) ->
  Rleb (dist2 c v) r = false.
Proof.
  intros c r v Hr H. apply Rleb_gt. rewrite dist2_dist. apply Rnot_le_lt. intros Hd.
  apply dist_le_iff in Hd; auto. lra.
Qed.

Definition square2 : list P2 := [(1, 1); (1, -1); (-1, -1); (-1, 1)].
Lemma square2_rectangle : rectangle_vertices 2 2 0 = square2.
Proof. rewrite upright_vertices. unfold square2. repeat (apply f_equal2; [apply f_equal2; field |]); reflexivity. Qed.
Lemma corner_missed : exists c r pos x,
  0 < r /\ in_box pos 2 2 x /\ dist c x < r /\
  circle_poly c r (rectangle_vertices 2 2 0) pos = false.
Proof.
  exists (-(3 / 2), -(3 / 2)), (4 / 5), (0, 0), (-1, -1).
  split; [lra |]. split; [unfold in_box; cbn [fst snd]; rewrite !Rabs_le_iff; lra |].
  split; [apply dist_lt_iff; unfold Rsqr; cbn [fst snd]; lra |].
  unfold circle_poly. apply orb_false_intro.
  - apply not_true_is_false. rewrite in_rectangle_iff by lra. unfold in_rect; cbn [fst snd].
    rewrite cos_0, sin_0, !Rabs_le_iff. lra.
  - rewrite square2_rectangle. unfold circle_polyhedron_intersection, square2, shift.
    cbn [map fst snd firstn existsb sides pairs_from].
    repeat (apply orb_false_intro); auto.
    + apply vertex_miss; unfold Rsqr; cbn [fst snd]; lra.
    + apply vertex_miss; unfold Rsqr; cbn [fst snd]; lra.
    + apply (side_miss _ _ _ _ (1, -(3 / 2))); [intros E; injection E; lra | | cbn [fst snd]; lra | unfold eps6; cbn [fst snd]; lra].
      exists (5 / 4); unfold between; cbn [fst snd]; f_equal; lra.
    + apply (side_miss _ _ _ _ (-(3 / 2), -1)); [intros E; injection E; lra | | cbn [fst snd]; lra | unfold eps6; cbn [fst snd]; lra].
      exists (5 / 4); unfold between; cbn [fst snd]; f_equal; lra.
    + apply (side_miss _ _ _ _ (-1, -(3 / 2))); [intros E; injection E; lra | | cbn [fst snd]; lra | unfold eps6; cbn [fst snd]; lra].
      exists (-(1 / 4)); unfold between; cbn [fst snd]; f_equal; lra.
    + apply (side_miss _ _ _ _ (-(3 / 2), 1)); [intros E; injection E; lra | | cbn [fst snd]; lra | unfold eps6; cbn [fst snd]; lra].
      exists (-(1 / 4)); unfold between; cbn [fst snd]; f_equal; lra.
Qed.

Definition diamond : list P2 := [(0, 1); (1, 0); (0, -1); (-1, 0)].
Lemma diamond_convex : forall p q v, edge diamond p q -> In v diamond -> right_of p q v.
Proof.
  intros p q v He Hv. unfold diamond in *. apply edges4 in He. simpl in Hv.
  destruct He as [[-> ->] | [[-> ->] | [[-> ->] | [-> ->]]]];
    destruct Hv as [<- | [<- | [<- | [<- | []]]]]; unfold right_of; cbn [fst snd]; lra.
Qed.
Lemma diamond_edges : forall p q, edge diamond p q -> p <> q.
Proof.
  intros p q He. unfold diamond in He. apply edges4 in He.
  destruct He as [[-> ->] | [[-> ->] | [[-> ->] | [-> ->]]]]; intros E; injection E; lra.
Qed.
Lemma descending_missed : exists c r x,
  boundary diamond x /\ dist c x < r /\ circle_poly c r diamond (0, 0) = false.
Proof.
  exists (1, 1), (4 / 5), (1 / 2, 1 / 2). split; [| split].
  - exists (0, 1), (1, 0). split; [apply edges4; auto |]. exists (1 / 2). split; [lra |].
    unfold between; cbn [fst snd]; f_equal; field.
  - apply dist_lt_iff; unfold Rsqr; cbn [fst snd]; lra.
  - unfold circle_poly. apply orb_false_intro.
    + apply not_true_is_false. rewrite in_polyhedron_iff by apply diamond_edges. intros H.
      specialize (H (0, 1) (1, 0)). unfold area, moved in H; cbn [fst snd] in H.
      assert (edge diamond (0, 1) (1, 0)) by (apply edges4; auto). specialize (H H0). lra.
    + unfold circle_polyhedron_intersection, diamond, shift.
      cbn [map fst snd firstn existsb sides pairs_from].
      repeat (apply orb_false_intro); auto.
      * apply vertex_miss; unfold Rsqr; cbn [fst snd]; lra.
      * apply vertex_miss; unfold Rsqr; cbn [fst snd]; lra.
      * apply (side_miss _ _ _ _ (1 / 2, 1 / 2)); [intros E; injection E; lra | | cbn [fst snd]; lra | unfold eps6; cbn [fst snd]; lra].
        exists (1 / 2); unfold between; cbn [fst snd]; f_equal; lra.
      * apply (side_miss _ _ _ _ (3 / 2, 1 / 2)); [intros E; injection E; lra | | cbn [fst snd]; lra | unfold eps6; cbn [fst snd]; lra].
        exists (-(1 / 2)); unfold between; cbn [fst snd]; f_equal; lra.
      * apply (side_miss _ _ _ _ (-(1 / 2), -(1 / 2))); [intros E; injection E; lra | | cbn [fst snd]; lra | unfold eps6; cbn [fst snd]; lra].
        exists (1 / 2); unfold between; cbn [fst snd]; f_equal; lra.
      * apply (side_miss _ _ _ _ (1 / 2, 3 / 2)); [intros E; injection E; lra | | cbn [fst snd]; lra | unfold eps6; cbn [fst snd]; lra].
        exists (3 / 2); unfold between; cbn [fst snd]; f_equal; lra.
Qed.

Definition ccw_square : list P2 := [(1, 1); (-1, 1); (-1, -1); (1, -1)].
Lemma ccw_rejected : hull ccw_square (0, 0) /\ point_in_polyhedron (0, 0) ccw_square (0, 0) 0 = false.
Proof.
  split.
  - replace (0, 0) with (between (1 / 2) (1, 1) (-1, -1)) by (unfold between; cbn [fst snd]; f_equal; lra).
    apply hull_mix; [lra | |]; apply hull_vertex; simpl; auto.
  - apply not_true_is_false. rewrite in_polyhedron_iff.
    + intros H. specialize (H (1, 1) (-1, 1)).
      assert (He : edge ccw_square (1, 1) (-1, 1)) by (apply edges4; auto).
      specialize (H He). unfold area, moved in H; cbn [fst snd] in H. lra.
    + intros p q He. apply edges4 in He.
      destruct He as [[-> ->] | [[-> ->] | [[-> ->] | [-> ->]]]]; intros E; injection E; lra.
Qed.

Lemma dtr_again : forall p vs pos,
  fst (distance_to_rectangle p (snd (distance_to_rectangle p vs pos)) pos)
  = fst (distance_to_rectangle p vs (2 * fst pos, 2 * snd pos)).
Proof.
  intros p vs [u v]. cbn [distance_to_rectangle snd].
  assert (E : map (shift (u, v)) (map (shift (u, v)) vs) = map (shift (2 * u, 2 * v)) vs).
  { rewrite map_map. apply map_ext. intros [a b]; unfold shift; cbn [fst snd]; f_equal; ring. }
  unfold distance_to_rectangle. cbn [fst snd]. rewrite E. reflexivity.
Qed.
Lemma not_repeatable : exists p vs pos,
  let first := distance_to_rectangle p vs pos in
  fst (distance_to_rectangle p (snd first) pos) <> fst first.
Proof.
  exists (3, 0), (rectangle_vertices 2 2 0), (1, 0). cbv zeta. rewrite dtr_again.
  rewrite !dtr_upright by lra. cbn [fst snd]. intros E. apply (f_equal fst) in E. cbn [fst] in E.
  revert E. unfold Rltb, Rabs. repeat destruct Rcase_abs; repeat destruct Rlt_dec; lra.
Qed.

Lemma sphere_sticks_out : exists lo hi rpos position rad x,
  (forall e, In e (room_cons3 lo hi rpos (0, 0, 0) position) -> e <= 0) /\
  dist3 position x <= rad /\ fst (fst (plus3 hi rpos)) < fst (fst x).
Proof.
  exists (-1, -1, -1), (1, 1, 1), (0, 0, 0), (1, 0, 0), (1 / 2), (3 / 2, 0, 0).
  split; [| split].
  - intros e He. cbn [room_cons3 add3 In] in He.
    destruct He as [<- | [<- | [<- | [<- | [<- | [<- | []]]]]]]; lra.
  - unfold dist3, diff3, inner3; cbn [fst snd].
    replace ((1 - 3 / 2) * (1 - 3 / 2) + (0 - 0) * (0 - 0) + (0 - 0) * (0 - 0)) with ((1 / 2) * (1 / 2)) by field.
    rewrite sqrt_square; lra.
  - unfold plus3; cbn [fst snd]; lra.
Qed.
