Require Import Reals List ZArith Lra Lia Bool Psatz.
Require Import Verif.Geom_Model Verif.Geom_Spec.
Import ListNotations.
Open Scope bool_scope.
Open Scope R_scope.

Lemma Rleb_le : forall x y, Rleb x y = true <-> x <= y.
Proof. intros; unfold Rleb; destruct (Rle_dec x y); split; intros; auto; try discriminate; contradiction. Qed.
Lemma Rltb_lt : forall x y, Rltb x y = true <-> x < y.
Proof. intros; unfold Rltb; destruct (Rlt_dec x y); split; intros; auto; try discriminate; contradiction. Qed.
Lemma Rltb_ge : forall x y, Rltb x y = false <-> y <= x.
Proof. intros; unfold Rltb; destruct (Rlt_dec x y); split; intros; auto; try discriminate; lra. Qed.
Lemma Rleb_gt : forall x y, Rleb x y = false <-> y < x.
Proof. intros; unfold Rleb; destruct (Rle_dec x y); split; intros; auto; try discriminate; lra. Qed.
Lemma Reqb0_eq : forall x, Reqb0 x = true <-> x = 0.
Proof. intros; unfold Reqb0; destruct (Req_EM_T x 0); split; intros; auto; try discriminate; contradiction. Qed.

Lemma dist2_dist : forall p q, dist2 p q = dist p q.
Proof. intros [a b] [c d]; unfold dist2, dist, Rsqr; cbn [fst snd]; f_equal; ring. Qed.

Lemma dist_sym : forall p q, dist p q = dist q p.
Proof. intros [a b] [c d]; unfold dist, Rsqr; cbn [fst snd]; f_equal; ring. Qed.
Lemma dist_nonneg : forall p q, 0 <= dist p q.
Proof. intros; apply sqrt_pos. Qed.
Lemma dist_sqr : forall p q, dist p q * dist p q = Rsqr (fst p - fst q) + Rsqr (snd p - snd q).
Proof. intros; apply sqrt_sqrt; apply Rplus_le_le_0_compat; apply Rle_0_sqr. Qed.
Lemma dist_le_iff : forall p q r, 0 <= r ->
  (dist p q <= r <-> Rsqr (fst p - fst q) + Rsqr (snd p - snd q) <= r * r).
Proof.
  intros p q r Hr. pose proof (dist_sqr p q); pose proof (dist_nonneg p q).
  split; intros; nra.
Qed.
Lemma dist_lt_iff : forall p q r, 0 <= r ->
  (dist p q < r <-> Rsqr (fst p - fst q) + Rsqr (snd p - snd q) < r * r).
Proof.
  intros p q r Hr. pose proof (dist_sqr p q); pose proof (dist_nonneg p q).
  split; intros; nra.
Qed.

(* a . (q - p) <= |a| |q - p| <= |q - p| *)
Lemma inner_le_dist : forall a p q, fst a * fst a + snd a * snd a <= 1 ->
  fst a * (fst q - fst p) + snd a * (snd q - snd p) <= dist p q.
Proof.
  intros [a b] [p p'] [q q'] H; cbn [fst snd] in *.
  destruct (Rle_or_lt (a * (q - p) + b * (q' - p')) 0) as [H0 | H0].
  - pose proof (dist_nonneg (p, p') (q, q')); lra.
  - pose proof (dist_sqr (p, p') (q, q')) as Hs; pose proof (dist_nonneg (p, p') (q, q')) as Hn.
    cbn [fst snd] in Hs; unfold Rsqr in Hs.
    set (d := dist (p, p') (q, q')) in *. set (u := q - p) in *. set (v := q' - p') in *.
    replace ((p - q) * (p - q) + (p' - q') * (p' - q')) with (u * u + v * v) in Hs by (unfold u, v; ring).
    assert (Hc : (a * u + b * v) * (a * u + b * v) <= d * d).
    { rewrite Hs. assert (0 <= (a * v - b * u) * (a * v - b * u)) by apply Rle_0_sqr.
      assert (0 <= (u * u + v * v) * (1 - (a * a + b * b))) by (apply Rmult_le_pos; nra).
      nra. }
    nra.
Qed.

Lemma between_inner : forall s p q a,
  fst a * fst (between s p q) + snd a * snd (between s p q)
  = (1 - s) * (fst a * fst p + snd a * snd p) + s * (fst a * fst q + snd a * snd q).
Proof. intros; unfold between; cbn [fst snd]; ring. Qed.

Lemma hull_halfplane : forall vs a b,
  (forall v, In v vs -> fst a * fst v + snd a * snd v <= b) ->
  forall x, hull vs x -> fst a * fst x + snd a * snd x <= b.
Proof.
  intros vs a b H x Hx; induction Hx as [v Hv | s p q Hs _ IHp _ IHq]; auto.
  rewrite between_inner. nra.
Qed.

(* ---------- distances ---------- *)

Lemma sqdist_nonneg : forall p q d, sqdist p q = Some d -> 0 <= d.
Proof.
  induction p as [| x p IH]; intros [| y q] d H; simpl in H; try discriminate.
  - injection H as <-; lra.
  - destruct (sqdist p q) eqn:E; [| discriminate]. injection H as <-.
    specialize (IH _ _ E). pose proof (pow2_ge_0 (y - x)). lra.
Qed.
Lemma dbp_length : forall p q, distance_between_points p q = None <-> length p <> length q.
Proof.
  intros p q; unfold distance_between_points.
  assert (H : sqdist p q = None <-> length p <> length q).
  { revert q; induction p as [| x p IH]; intros [| y q]; simpl; split; intros H; try discriminate; try congruence.
    - destruct (sqdist p q) eqn:E; [discriminate |]. destruct (IH q) as [A _]. intros HL; apply A; auto.
    - destruct (sqdist p q) eqn:E; auto. destruct (IH q) as [_ A]. rewrite A in E; [discriminate | congruence]. }
  destruct (sqdist p q); split; intros; try discriminate; try (apply H; congruence); try reflexivity.
  apply H in H0; discriminate.
Qed.
Lemma dbp_sym : forall p q, distance_between_points p q = distance_between_points q p.
Proof.
  intros p q; unfold distance_between_points. replace (sqdist q p) with (sqdist p q); auto.
  revert q; induction p as [| x p IH]; intros [| y q]; simpl; auto.
  rewrite IH. destruct (sqdist q p); auto. f_equal; ring.
Qed.
Lemma dbp_zero : forall p q, distance_between_points p q = Some 0 <-> p = q.
Proof.
  intros p q; unfold distance_between_points.
  assert (H : sqdist p q = Some 0 <-> p = q).
  { revert q; induction p as [| x p IH]; intros [| y q]; simpl; split; intros H; try discriminate; auto.
    - destruct (sqdist p q) eqn:E; [| discriminate]. pose proof (sqdist_nonneg _ _ _ E).
      injection H as H. pose proof (pow2_ge_0 (y - x)). assert (r = 0) by lra. subst r.
      assert (Hyx : (y - x) ^ 2 = 0) by lra.
      assert (y - x = 0) by (apply Rsqr_0_uniq; unfold Rsqr; lra). replace y with x by lra. f_equal. apply IH; auto.
    - injection H as -> ->. destruct (IH q) as [_ A]. rewrite A by reflexivity. f_equal; ring. }
  destruct (sqdist p q) as [d |] eqn:E; split; intros H0.
  - apply H. injection H0 as H0. pose proof (sqdist_nonneg _ _ _ E).
    f_equal. apply sqrt_eq_0; auto.
  - apply H in H0. injection H0 as ->. rewrite sqrt_0; auto.
  - discriminate.
  - apply H in H0; discriminate.
Qed.

(* Minkowski by Cauchy-Schwarz on lists of differences *)
Lemma norm_triangle : forall A B C x y,
  0 <= A -> 0 <= B -> 0 <= C -> sqrt C <= sqrt A + sqrt B ->
  sqrt ((x + y) ^ 2 + C) <= sqrt (x ^ 2 + A) + sqrt (y ^ 2 + B).
Proof.
  intros A B C x y HA HB HC H.
  pose proof (sqrt_pos A); pose proof (sqrt_pos B); pose proof (sqrt_pos C).
  pose proof (sqrt_sqrt A HA); pose proof (sqrt_sqrt B HB); pose proof (sqrt_sqrt C HC).
  set (a := sqrt A) in *; set (b := sqrt B) in *; set (c := sqrt C) in *.
  assert (HX : 0 <= x ^ 2 + A) by (pose proof (pow2_ge_0 x); lra).
  assert (HY : 0 <= y ^ 2 + B) by (pose proof (pow2_ge_0 y); lra).
  pose proof (sqrt_pos (x ^ 2 + A)); pose proof (sqrt_pos (y ^ 2 + B)).
  pose proof (sqrt_sqrt _ HX) as SX; pose proof (sqrt_sqrt _ HY) as SY.
  set (u := sqrt (x ^ 2 + A)) in *; set (v := sqrt (y ^ 2 + B)) in *.
  rewrite <- (sqrt_square (u + v)) by lra. apply sqrt_le_1_alt.
  assert (Hxy : x * y + a * b <= u * v).
  { assert (0 <= u * v) by (apply Rmult_le_pos; auto).
    destruct (Rle_or_lt (x * y + a * b) 0); [lra |].
    assert ((x * y + a * b) * (x * y + a * b) <= (u * v) * (u * v)).
    { replace ((u * v) * (u * v)) with ((u * u) * (v * v)) by ring. rewrite SX, SY.
      replace A with (a * a) by auto. replace B with (b * b) by auto.
      assert (0 <= (x * b - y * a) ^ 2) by apply pow2_ge_0. nra. }
    nra. }
  assert (c * c <= (a + b) * (a + b)) by nra.
  nra.
Qed.
Lemma dbp_triangle : forall p q r d1 d2 d3,
  distance_between_points p q = Some d1 -> distance_between_points q r = Some d2 ->
  distance_between_points p r = Some d3 -> d3 <= d1 + d2.
Proof.
  unfold distance_between_points.
  induction p as [| x p IH]; intros [| y q] [| z r] d1 d2 d3; simpl; try discriminate.
  - intros H1 H2 H3. injection H1 as <-; injection H2 as <-; injection H3 as <-. rewrite sqrt_0; lra.
  - specialize (IH q r).
    destruct (sqdist p q) as [e1 |] eqn:E1; [| discriminate].
    destruct (sqdist q r) as [e2 |] eqn:E2; [| discriminate].
    destruct (sqdist p r) as [e3 |] eqn:E3; [| discriminate].
    intros H1 H2 H3. injection H1 as <-; injection H2 as <-; injection H3 as <-.
    replace (z - x) with ((y - x) + (z - y)) by ring.
    apply norm_triangle; try (eapply sqdist_nonneg; eassumption).
    apply (IH _ _ _ eq_refl eq_refl eq_refl).
Qed.

(* distance_to_line is the distance to the nearest point of the line *)
Lemma line_den_pos : forall p q : pt, p <> q -> 0 < (snd q - snd p) ^ 2 + (fst q - fst p) ^ 2.
Proof.
  intros [a b] [c d] H; cbn [fst snd].
  pose proof (pow2_ge_0 (c - a)); pose proof (pow2_ge_0 (d - b)).
  destruct (Req_dec a c) as [-> | Hn].
  - destruct (Req_dec b d) as [-> | Hn]; [congruence |].
    assert (0 < (d - b) ^ 2) by (rewrite <- Rsqr_pow2; apply Rsqr_pos_lt; lra). lra.
  - assert (0 < (c - a) ^ 2) by (rewrite <- Rsqr_pow2; apply Rsqr_pos_lt; lra). lra.
Qed.
Lemma distance_to_line_spec : forall p v1 v2, v1 <> v2 ->
  (forall x, on_line v1 v2 x -> distance_to_line p v1 v2 <= dist p x) /\
  (exists x, on_line v1 v2 x /\ distance_to_line p v1 v2 = dist p x).
Proof.
  intros [px py] [x1 y1] [x2 y2] Hne.
  pose proof (line_den_pos _ _ Hne) as HD. cbn [fst snd] in HD.
  set (D := (y2 - y1) ^ 2 + (x2 - x1) ^ 2) in *.
  set (n := (y2 - y1) * px - (x2 - x1) * py + x2 * y1 - y2 * x1).
  assert (Hdl : distance_to_line (px, py) (x1, y1) (x2, y2) = Rabs n / sqrt D) by reflexivity.
  assert (HsD : 0 < sqrt D) by (apply sqrt_lt_R0; auto).
  assert (HDD : sqrt D * sqrt D = D) by (apply sqrt_sqrt; lra).
  rewrite Hdl. split.
  - intros x [s ->]. apply (Rmult_le_reg_r (sqrt D)); auto.
    replace (Rabs n / sqrt D * sqrt D) with (Rabs n) by (field; lra).
    pose proof (dist_nonneg (px, py) (between s (x1, y1) (x2, y2))) as Hd0.
    pose proof (dist_sqr (px, py) (between s (x1, y1) (x2, y2))) as Hd.
    set (d := dist _ _) in *.
    rewrite <- (Rabs_pos_eq (d * sqrt D)) by (apply Rmult_le_pos; lra).
    apply Rsqr_le_abs_0. unfold Rsqr.
    replace (d * sqrt D * (d * sqrt D)) with ((d * d) * (sqrt D * sqrt D)) by ring.
    rewrite HDD, Hd. unfold between, Rsqr; cbn [fst snd].
    set (u := px - (x1 + s * (x2 - x1))). set (w := py - (y1 + s * (y2 - y1))).
    replace n with ((y2 - y1) * u - (x2 - x1) * w) by (unfold n, u, w; ring).
    unfold D. assert (0 <= ((y2 - y1) * w + (x2 - x1) * u) ^ 2) by apply pow2_ge_0. nra.
  - set (s := ((px - x1) * (x2 - x1) + (py - y1) * (y2 - y1)) / D).
    exists (between s (x1, y1) (x2, y2)). split; [exists s; reflexivity |].
    unfold dist, between; cbn [fst snd].
    replace (Rsqr _ + Rsqr _) with (Rsqr (n / sqrt D)).
    + rewrite sqrt_Rsqr_abs. unfold Rdiv. rewrite Rabs_mult, (Rabs_pos_eq (/ sqrt D)); auto.
      left; apply Rinv_0_lt_compat; auto.
    + unfold Rsqr, s. replace (n / sqrt D * (n / sqrt D)) with (n * n / (sqrt D * sqrt D)) by (field; lra).
      rewrite HDD. unfold n. field_simplify_eq; [unfold D; ring |]. lra.
Qed.
