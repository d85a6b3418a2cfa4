Require Import Reals List ZArith Lra Lia Bool Psatz.
Require Import Verif.Geom_Model Verif.Geom_Spec Verif.Geom_Proofs Verif.Geom_Proofs2 Verif.Geom_Proofs3.
Import ListNotations.
Open Scope bool_scope.
Open Scope R_scope.

(* ---------- point in rectangle ---------- *)

Lemma static_iff : forall p xmin ymin xmax ymax d,
  point_in_rectangle p (xmin, ymin, xmax, ymax) d = true <->
  (xmin + d <= fst p <= xmax - d /\ ymin + d <= snd p <= ymax - d).
Proof. intros; unfold point_in_rectangle; rewrite andb_true_iff, !in_interval_iff; tauto. Qed.

Lemma n_checks_bounds : forall h, 0 <= h -> (1 <= n_checks h)%Z /\ 2 * h < IZR (n_checks h).
Proof.
  intros h Hh. unfold n_checks. pose proof (base_Int_part (h / (1 / 2) + 1 / 2)) as [A B].
  set (k := Int_part _) in *. replace (h / (1 / 2)) with (2 * h) in * by field.
  split.
  - assert (-1 < IZR k) by lra. assert ((-1 < k)%Z) by (apply lt_IZR; lra). lia.
  - rewrite plus_IZR. lra.
Qed.
Lemma moving_sound : forall p l h v, 0 <= h -> moving_point_in_rectangle p l h v = true ->
  exists t, 0 <= t <= h /\ in_limits l (fst p + t * fst v, snd p + t * snd v).
Proof.
  intros p [[[xmin ymin] xmax] ymax] h v Hh H. unfold moving_point_in_rectangle in H.
  apply existsb_exists in H as [k [Hk H]]. apply in_seq in Hk.
  apply andb_prop in H as [H1 H2]. apply in_interval_iff in H1, H2.
  destruct (n_checks_bounds h Hh) as [Hn Hn2]. set (n := n_checks h) in *.
  assert (Hn0 : 1 <= IZR n) by (apply IZR_le; auto).
  exists (INR k * (h / IZR n)). split; [| split; auto].
  assert (Hq : 0 <= h / IZR n) by (apply Rmult_le_pos; [auto | apply Rlt_le, Rinv_0_lt_compat; lra]).
  split; [apply Rmult_le_pos; [apply pos_INR | auto] |].
  assert (Hk' : INR k <= IZR n).
  { rewrite INR_IZR_INZ. apply IZR_le. lia. }
  apply Rle_trans with (IZR n * (h / IZR n)); [apply Rmult_le_compat_r; auto |].
  right; field; lra.
Qed.
(* some multiple of ts lies in every interval of length ts *)
Lemma multiple_between : forall ts t0, 0 < ts -> 0 <= t0 -> exists k : nat, t0 <= INR k * ts <= t0 + ts.
Proof.
  intros ts t0 Hts H0. destruct (archimed (t0 / ts)) as [A B].
  set (z := up (t0 / ts)) in *.
  assert (Hq : 0 <= t0 / ts) by (apply Rmult_le_pos; [auto | apply Rlt_le, Rinv_0_lt_compat; auto]).
  assert (Hz : (0 <= z)%Z) by (apply le_IZR; simpl; lra).
  exists (Z.to_nat z). rewrite INR_IZR_INZ, Z2Nat.id by auto.
  assert (E : t0 = t0 / ts * ts) by (field; lra).
  split.
  - rewrite E at 1. apply Rmult_le_compat_r; lra.
  - assert (IZR z <= t0 / ts + 1) by lra.
    apply Rle_trans with ((t0 / ts + 1) * ts); [apply Rmult_le_compat_r; lra |]. rewrite Rmult_plus_distr_r. lra.
Qed.
Lemma moving_dwell : forall p l h v t0, 0 < h -> 0 <= t0 -> t0 + 1 / 2 <= h ->
  (forall t, t0 <= t <= t0 + 1 / 2 -> in_limits l (fst p + t * fst v, snd p + t * snd v)) ->
  moving_point_in_rectangle p l h v = true.
Proof.
  intros p [[[xmin ymin] xmax] ymax] h v t0 Hh H0 H1 H. unfold moving_point_in_rectangle.
  destruct (n_checks_bounds h) as [Hn Hn2]; [lra |]. set (n := n_checks h) in *.
  assert (Hn0 : 1 <= IZR n) by (apply IZR_le; auto).
  assert (Hts : 0 < h / IZR n) by (apply Rdiv_lt_0_compat; lra).
  assert (Hts2 : h / IZR n <= 1 / 2).
  { apply (Rmult_le_reg_r (IZR n)); [lra |]. replace (h / IZR n * IZR n) with h by (field; lra). lra. }
  destruct (multiple_between (h / IZR n) t0 Hts H0) as [k Hk].
  apply existsb_exists. exists k. split.
  - apply in_seq. split; [lia |].
    assert (INR k * (h / IZR n) <= h) by lra.
    assert (Hkn : INR k <= IZR n).
    { apply (Rmult_le_reg_r (h / IZR n)); auto. replace (IZR n * (h / IZR n)) with h by (field; lra). auto. }
    rewrite INR_IZR_INZ in Hkn. apply le_IZR in Hkn. lia.
  - destruct (H (INR k * (h / IZR n))) as [A B]; [lra |]. cbn [fst snd] in *.
    apply andb_true_intro; split; apply in_interval_iff; auto.
Qed.
Lemma n_checks_1 : n_checks 1 = 3%Z.
Proof.
  unfold n_checks. replace (1 / (1 / 2) + 1 / 2) with (IZR 2 + 1 / 2) by (simpl; field).
  assert (E : Int_part (IZR 2 + 1 / 2) = 2%Z); [| rewrite E; reflexivity].
  unfold Int_part. rewrite <- (up_tech (IZR 2 + 1 / 2) 2); [reflexivity | simpl; lra | simpl; lra].
Qed.
Lemma moving_missed :
  exists p l h v t, 0 <= t <= h /\ in_limits l (fst p + t * fst v, snd p + t * snd v) /\
    moving_point_in_rectangle p l h v = false.
Proof.
  exists (0, 0), (4, -1, 6, 1), 1, (30, 0), (1 / 6). split; [lra |]. split.
  - unfold in_limits; cbn [fst snd]; lra.
  - unfold moving_point_in_rectangle. rewrite n_checks_1.
    change (Z.to_nat (3 + 1)) with 4%nat. cbn [seq existsb fst snd INR].
    repeat (apply orb_false_intro); auto; apply andb_false_intro1; apply not_true_is_false;
      rewrite in_interval_iff; lra.
Qed.

(* ---------- obstacles ---------- *)

Lemma dist_between : forall p q s, 0 <= s -> dist p (between s p q) = s * dist p q.
Proof.
  intros [a b] [c d] s Hs. unfold dist, between; cbn [fst snd]. unfold Rsqr.
  rewrite <- (sqrt_square s) at 5 by auto. rewrite <- sqrt_mult_alt by nra.
  f_equal. ring.
Qed.
Lemma dist_between' : forall p q s, s <= 1 -> dist (between s p q) q = (1 - s) * dist p q.
Proof.
  intros [a b] [c d] s Hs. unfold dist, between; cbn [fst snd]. unfold Rsqr.
  rewrite <- (sqrt_square (1 - s)) at 1 by lra. rewrite <- sqrt_mult_alt by nra.
  f_equal. ring.
Qed.
Lemma discs_overlap : forall r p r' q, 0 < r -> 0 < r' ->
  (overlaps_with (SCircle r) p (SCircle r') q = Some true <->
   exists x, dist p x < r /\ dist x q < r').
Proof.
  intros r p r' q Hr Hr'. unfold overlaps_with. rewrite dist2_dist. split.
  - intros H. injection H as H. apply Rltb_lt in H.
    exists (between (r / (r + r')) p q).
    assert (Hs : 0 <= r / (r + r') <= 1).
    { split; [apply Rmult_le_pos; [lra | apply Rlt_le, Rinv_0_lt_compat; lra] |].
      apply (Rmult_le_reg_r (r + r')); [lra |]. replace (r / (r + r') * (r + r')) with r by (field; lra). lra. }
    rewrite dist_between, dist_between' by lra.
    replace (1 - r / (r + r')) with (r' / (r + r')) by (field; lra).
    split.
    + apply (Rmult_lt_reg_r (r + r')); [lra |].
      replace (r / (r + r') * dist p q * (r + r')) with (r * dist p q) by (field; lra).
      apply Rmult_lt_compat_l; lra.
    + apply (Rmult_lt_reg_r (r + r')); [lra |].
      replace (r' / (r + r') * dist p q * (r + r')) with (r' * dist p q) by (field; lra).
      apply Rmult_lt_compat_l; lra.
  - intros [x [A B]]. f_equal. apply Rltb_lt. pose proof (dist_triangle p x q). lra.
Qed.
Lemma overlaps_symmetric : forall s p o q, overlaps_with s p o q = overlaps_with o q s p.
Proof.
  intros [r | s | vs] p [r' | s' | vs'] q; simpl; auto.
  - rewrite !dist2_dist, dist_sym, Rplus_comm. reflexivity.
  - destruct (Reqb0 (rth s')) eqn:E'; destruct (Reqb0 (rth s)) eqn:E; auto.
    + apply overlap_sym.
    + apply overlap_raises. right; intros H; apply Reqb0_eq in H; congruence.
    + symmetry; apply overlap_raises. right; intros H; apply Reqb0_eq in H; congruence.
Qed.

Lemma circle_inside_iff : forall r pos room rpos, 0 <= r ->
  (is_outside_of (SCircle r) pos room rpos = false <->
   forall x, dist pos x <= r -> in_room room rpos x).
Proof.
  intros r [px py] [[xmin xmax] [ymin ymax]] [u v] Hr. unfold is_outside_of, in_room; cbn [fst snd].
  rewrite !orb_false_iff, !negb_false_iff, !in_interval_iff. split.
  - intros H [x y] Hd. cbn [fst snd].
    apply dist_le_iff in Hd; auto; cbn [fst snd] in Hd. unfold Rsqr in Hd.
    assert (- r <= px - x <= r) by (pose proof (sq_pos (py - y)); split; nra).
    assert (- r <= py - y <= r) by (pose proof (sq_pos (px - x)); split; nra).
    lra.
  - intros H.
    assert (H1 := H (px + r, py)). assert (H2 := H (px - r, py)).
    assert (H3 := H (px, py + r)). assert (H4 := H (px, py - r)). cbn [fst snd] in *.
    rewrite dist_horz, Rabs_left1 in H1 by lra. rewrite dist_horz, Rabs_pos_eq in H2 by lra.
    rewrite dist_vert, Rabs_left1 in H3 by lra. rewrite dist_vert, Rabs_pos_eq in H4 by lra.
    destruct H1 as [? ?]; [lra |]; destruct H2 as [? ?]; [lra |];
    destruct H3 as [? ?]; [lra |]; destruct H4 as [? ?]; [lra |]. lra.
Qed.
Lemma hull_in_room : forall vs room rpos, (forall v, In v vs -> in_room room rpos v) ->
  forall x, hull vs x -> in_room room rpos x.
Proof.
  intros vs room rpos H x Hx; induction Hx as [v Hv | s p q Hs _ IHp _ IHq]; auto.
  unfold in_room, between in *; cbn [fst snd]. split; nra.
Qed.
Lemma poly_inside_iff : forall s pos room rpos, (forall r, s <> SCircle r) ->
  (is_outside_of s pos room rpos = false <->
   forall x, hull (map (moved pos) (verts s)) x -> in_room room rpos x).
Proof.
  intros s pos room rpos Hs.
  assert (HE : is_outside_of s pos room rpos = false <-> forall v, In v (verts s) -> in_room room rpos (moved pos v)).
  { destruct room as [[xmin xmax] [ymin ymax]]. destruct s as [r | q | vs]; [congruence | |];
    (cbn [is_outside_of]; rewrite <- not_true_iff_false, existsb_exists; split;
     [ intros H v Hv; destruct (in_interval (xmin + fst rpos) (fst v + fst pos) (xmax + fst rpos)) eqn:A;
         [ destruct (in_interval (ymin + snd rpos) (snd v + snd pos) (ymax + snd rpos)) eqn:B;
             [ apply in_interval_iff in A, B; split; auto
             | exfalso; apply H; exists v; split; auto; rewrite A, B; reflexivity ]
         | exfalso; apply H; exists v; split; auto; rewrite A; reflexivity ]
     | intros H [v [Hv Hb]]; destruct (H v Hv) as [A B]; apply in_interval_iff in A, B;
       cbn [fst snd moved] in A, B; rewrite A, B in Hb; discriminate ]). }
  rewrite HE. split.
  - intros H. apply hull_in_room. intros v Hv. apply in_map_iff in Hv as [v' [<- Hv]]. auto.
  - intros H v Hv. apply H, hull_vertex, in_map; auto.
Qed.

(* ---------- collision constraints ---------- *)

Lemma half_angle : forall th, cos (th / 2) <> 0 ->
  let tg := tan (th / 2) in
  (1 + tg ^ 2) * cos th = 1 - tg ^ 2 /\ (1 + tg ^ 2) * sin th = 2 * tg /\ 0 < 1 + tg ^ 2.
Proof.
  intros th Hc tg. set (u := th / 2) in *. replace th with (2 * u) by (unfold u; field).
  rewrite cos_2a, sin_2a. pose proof (cs2 u) as E. unfold tg, tan. set (c := cos u) in *. set (s := sin u) in *.
  assert (Hcc : c * c <> 0) by (apply Rmult_integral_contrapositive; auto).
  assert (E1 : 1 + (s / c) ^ 2 = / (c * c)).
  { replace (1 + (s / c) ^ 2) with ((c * c + s * s) / (c * c)) by (field; auto). rewrite E. field; auto. }
  rewrite E1. split; [| split].
  - field; auto.
  - field; auto.
  - apply Rinv_0_lt_compat. pose proof (sq_pos c). lra.
Qed.
Lemma veh_con_value : forall a b chck rad sl sd eps position th off, cos (th / 2) <> 0 ->
  veh_con a b chck rad sl sd eps position (tan (th / 2)) off =
  (1 + tan (th / 2) ^ 2) *
  (fst a * fst (world position th off chck) + snd a * snd (world position th off chck)
   - b + sl * rad + sd - eps).
Proof.
  intros a b chck rad sl sd eps position th off Hc.
  destruct (half_angle th Hc) as [E1 [E2 _]]. set (tg := tan (th / 2)) in *.
  unfold veh_con. rewrite <- E1, <- E2. unfold world, moved, turned; cbn [fst snd]. ring.
Qed.
Lemma veh_con_le : forall a b chck rad sl sd eps position th off, cos (th / 2) <> 0 ->
  (veh_con a b chck rad sl sd eps position (tan (th / 2)) off <= 0 <->
   fst a * fst (world position th off chck) + snd a * snd (world position th off chck)
   <= b - sl * rad - sd + eps).
Proof.
  intros a b chck rad sl sd eps position th off Hc. rewrite veh_con_value by auto.
  destruct (half_angle th Hc) as [_ [_ Hp]]. split; intros H; nra.
Qed.
Lemma obs_con_le : forall a b chck rad pos w phi, 0 < w ->
  (obs_con a b chck rad pos (w * cos phi) (w * sin phi) w <= 0 <->
   b + rad <= fst a * fst (world pos phi 0 chck) + snd a * snd (world pos phi 0 chck)).
Proof.
  intros a b chck rad pos w phi Hw.
  assert (E : obs_con a b chck rad pos (w * cos phi) (w * sin phi) w =
    w * (b + rad - (fst a * fst (world pos phi 0 chck) + snd a * snd (world pos phi 0 chck)))).
  { unfold obs_con, world, moved, turned; cbn [fst snd]. ring. }
  rewrite E. split; intros; nra.
Qed.

Lemma separated : forall a b vs os m n,
  fst a * fst a + snd a * snd a <= 1 ->
  (forall v, In v vs -> fst a * fst v + snd a * snd v <= b - m) ->
  (forall v, In v os -> b + n <= fst a * fst v + snd a * snd v) ->
  forall x y, hull vs x -> hull os y -> m + n <= dist x y.
Proof.
  intros a b vs os m n Ha Hv Ho x y Hx Hy.
  pose proof (hull_halfplane vs a _ Hv x Hx) as A.
  assert (Ho' : forall v, In v os -> fst (- fst a, - snd a) * fst v + snd (- fst a, - snd a) * snd v <= - (b + n)).
  { intros v Hi; specialize (Ho v Hi); cbn [fst snd]; lra. }
  pose proof (hull_halfplane os (- fst a, - snd a) _ Ho' y Hy) as B. cbn [fst snd] in B.
  pose proof (inner_le_dist a x y Ha). lra.
Qed.

Lemma collision_free : forall a b vchk rv sd eps position th off ochk ro opos w phi,
  cos (th / 2) <> 0 -> 0 < w -> norm_con a <= 0 ->
  (forall c, In c vchk -> veh_con a b c rv 1 sd eps position (tan (th / 2)) off <= 0) ->
  (forall c, In c ochk -> obs_con a b c ro opos (w * cos phi) (w * sin phi) w <= 0) ->
  forall x y, hull (map (world position th off) vchk) x -> hull (map (world opos phi 0) ochk) y ->
  rv + ro + (sd - eps) <= dist x y.
Proof.
  intros a b vchk rv sd eps position th off ochk ro opos w phi Hc Hw Ha Hv Ho x y Hx Hy.
  replace (rv + ro + (sd - eps)) with ((rv + sd - eps) + ro) by ring.
  apply (separated a b (map (world position th off) vchk) (map (world opos phi 0) ochk)); auto.
  - unfold norm_con in Ha; lra.
  - intros v Hi. apply in_map_iff in Hi as [c [<- Hi]]. apply Hv in Hi. apply veh_con_le in Hi; auto. lra.
  - intros v Hi. apply in_map_iff in Hi as [c [<- Hi]]. apply Ho in Hi. apply obs_con_le in Hi; auto.
Qed.
Lemma vehicles_apart : forall a b c1 r1 p1 t1 o1 s1 e1 c2 r2 p2 t2 o2 s2 e2,
  cos (t1 / 2) <> 0 -> cos (t2 / 2) <> 0 -> norm_con a <= 0 ->
  (forall c, In c c1 -> veh_con a b c r1 1 s1 e1 p1 (tan (t1 / 2)) o1 <= 0) ->
  (forall c, In c c2 -> veh_con (- fst a, - snd a) (- b) c r2 1 s2 e2 p2 (tan (t2 / 2)) o2 <= 0) ->
  forall x y, hull (map (world p1 t1 o1) c1) x -> hull (map (world p2 t2 o2) c2) y ->
  (r1 + s1 - e1) + (r2 + s2 - e2) <= dist x y.
Proof.
  intros a b c1 r1 p1 t1 o1 s1 e1 c2 r2 p2 t2 o2 s2 e2 H1 H2 Ha Hv Ho x y Hx Hy.
  apply (separated a b (map (world p1 t1 o1) c1) (map (world p2 t2 o2) c2)); auto.
  - unfold norm_con in Ha; lra.
  - intros v Hi. apply in_map_iff in Hi as [c [<- Hi]]. apply Hv in Hi. apply veh_con_le in Hi; auto. lra.
  - intros v Hi. apply in_map_iff in Hi as [c [<- Hi]]. apply Ho in Hi. apply veh_con_le in Hi; auto. cbn [fst snd] in Hi. lra.
Qed.
Lemma no_common_interior : forall vs os m n, 0 <= m -> 0 <= n ->
  (forall x y, hull vs x -> hull os y -> m + n <= dist x y) ->
  forall z c d, hull vs c -> hull os d -> dist c z < m -> dist d z < n -> False.
Proof.
  intros vs os m n Hm Hn H z c d Hc Hd A B. specialize (H c d Hc Hd).
  pose proof (dist_triangle c z d). rewrite (dist_sym z d) in *. lra.
Qed.

(* room constraints *)
Lemma room_rect_iff : forall chk rad position room rpos, 0 <= rad ->
  ((forall c e, In c chk -> In e (room_cons room rpos c position rad) -> e <= 0) <->
   (forall x, inflated (map (moved position) chk) rad x -> in_room room rpos x)).
Proof.
  intros chk rad position [[xmin xmax] [ymin ymax]] [u v] Hr. unfold in_room; cbn [fst snd]. split.
  - intros H [x y] [[cx cy] [Hc Hd]]. cbn [fst snd].
    assert (HR : in_room ((xmin + rad, xmax - rad), (ymin + rad, ymax - rad)) (u, v) (cx, cy)).
    { apply (hull_in_room (map (moved position) chk)); auto. intros w Hw. apply in_map_iff in Hw as [c [<- Hw]].
      pose proof (fun e => H c e Hw) as Hc'. unfold room_cons in Hc'; cbn [fst snd] in Hc'.
      assert (E1 := Hc' _ (or_introl eq_refl)). assert (E2 := Hc' _ (or_intror (or_introl eq_refl))).
      assert (E3 := Hc' _ (or_intror (or_intror (or_introl eq_refl)))).
      assert (E4 := Hc' _ (or_intror (or_intror (or_intror (or_introl eq_refl))))).
      unfold in_room, moved; cbn [fst snd]. lra. }
    unfold in_room in HR; cbn [fst snd] in HR.
    apply dist_le_iff in Hd; auto; cbn [fst snd] in Hd. unfold Rsqr in Hd.
    assert (- rad <= cx - x <= rad) by (pose proof (sq_pos (cy - y)); split; nra).
    assert (- rad <= cy - y <= rad) by (pose proof (sq_pos (cx - x)); split; nra).
    lra.
  - intros H [c1 c2] e Hc He. destruct position as [p1 p2].
    assert (HI : forall d1 d2, dist (c1 + p1, c2 + p2) (c1 + p1 + d1, c2 + p2 + d2) <= rad ->
       xmin + u <= c1 + p1 + d1 <= xmax + u /\ ymin + v <= c2 + p2 + d2 <= ymax + v).
    { intros d1 d2 Hd. apply (H (c1 + p1 + d1, c2 + p2 + d2)). exists (c1 + p1, c2 + p2). split; auto.
      apply hull_vertex. apply in_map_iff. exists (c1, c2); split; auto. }
    assert (HD : forall d1 d2, d1 * d1 + d2 * d2 <= rad * rad -> dist (c1 + p1, c2 + p2) (c1 + p1 + d1, c2 + p2 + d2) <= rad).
    { intros d1 d2 Hd. apply dist_le_iff; auto. unfold Rsqr; cbn [fst snd].
      replace (c1 + p1 - (c1 + p1 + d1)) with (- d1) by ring. replace (c2 + p2 - (c2 + p2 + d2)) with (- d2) by ring. lra. }
    assert (A1 := HI rad 0 (HD rad 0 ltac:(lra))). assert (A2 := HI (- rad) 0 (HD (- rad) 0 ltac:(lra))).
    assert (A3 := HI 0 rad (HD 0 rad ltac:(lra))). assert (A4 := HI 0 (- rad) (HD 0 (- rad) ltac:(lra))).
    unfold room_cons in He; cbn [fst snd In] in He.
    destruct He as [<- | [<- | [<- | [<- | []]]]]; lra.
Qed.
(* distance to a half-plane with a unit normal *)
Lemma halfplane_inflate : forall a b m c x, fst a * fst a + snd a * snd a <= 1 ->
  fst a * fst c + snd a * snd c <= b - m -> dist c x <= m -> fst a * fst x + snd a * snd x <= b.
Proof. intros a b m c x Ha Hc Hd. pose proof (inner_le_dist a c x Ha). lra. Qed.
Lemma hyperplane_unit : forall pos p q, p <> q ->
  let a := fst (hyperplane pos (p, q)) in fst a * fst a + snd a * snd a = 1.
Proof.
  intros pos [x1 y1] [x2 y2] Hne. cbn [hyperplane fst snd].
  pose proof (line_den_pos _ _ Hne) as Hp. cbn [fst snd] in Hp.
  assert (Hs : 0 < sqrt ((x2 - x1) ^ 2 + (y2 - y1) ^ 2)) by (apply sqrt_lt_R0; lra).
  assert (Hss : sqrt ((x2 - x1) ^ 2 + (y2 - y1) ^ 2) * sqrt ((x2 - x1) ^ 2 + (y2 - y1) ^ 2) = (x2 - x1) ^ 2 + (y2 - y1) ^ 2)
    by (apply sqrt_sqrt; lra).
  set (n := sqrt _) in *.
  replace (- (y2 - y1) / n * (- (y2 - y1) / n) + (x2 - x1) / n * ((x2 - x1) / n))
    with (((x2 - x1) ^ 2 + (y2 - y1) ^ 2) / (n * n)) by (field; lra).
  rewrite Hss. field. lra.
Qed.
Lemma room_hyp_sound : forall vs rpos chk rad position th off, cos (th / 2) <> 0 ->
  (forall p q, edge vs p q -> p <> q) ->
  (forall c h, In c chk -> In h (get_hyperplanes vs rpos) -> room_hyp_con h c rad position (tan (th / 2)) off <= 0) ->
  forall x, inflated (map (world position th off) chk) rad x ->
  forall p q, edge vs p q -> right_of (moved rpos p) (moved rpos q) x.
Proof.
  intros vs rpos chk rad position th off Hc Hne H x [y [Hy Hd]] p q He.
  assert (Hin : In (hyperplane rpos (p, q)) (get_hyperplanes vs rpos)) by (apply in_map, sides_edge; auto).
  pose proof (hyperplane_unit rpos p q (Hne _ _ He)) as Hu. cbv zeta in Hu.
  pose proof (hyperplane_value rpos p q x (Hne _ _ He)) as HV. cbv zeta in HV.
  set (h := hyperplane rpos (p, q)) in *.
  assert (HH : fst (fst h) * fst y + snd (fst h) * snd y <= snd h - rad).
  { apply (hull_halfplane (map (world position th off) chk)); auto. intros v Hv.
    apply in_map_iff in Hv as [c [<- Hv]]. specialize (H c h Hv Hin). unfold room_hyp_con in H.
    apply veh_con_le in H; auto. lra. }
  assert (HX := halfplane_inflate (fst h) (snd h) rad y x ltac:(lra) HH Hd).
  assert (Hq : area (moved rpos p) (moved rpos q) x / dist p q <= 0) by lra.
  pose proof (dist_pos _ _ (Hne _ _ He)) as Hp.
  apply (Rmult_le_compat_r (dist p q)) in Hq; [| lra].
  replace (area (moved rpos p) (moved rpos q) x / dist p q * dist p q) with (area (moved rpos p) (moved rpos q) x) in Hq by (field; lra).
  unfold area in Hq. unfold right_of. lra.
Qed.

(* ---------- three dimensions ---------- *)

Lemma dot3_inner : forall a p, dot3 a p = inner3 a p.
Proof. intros [[a b] c] [[d e] f]; reflexivity. Qed.
Lemma add3_plus : forall a p, add3 a p = plus3 a p.
Proof. intros [[a b] c] [[d e] f]; reflexivity. Qed.
Lemma dist3_sqr : forall p q, dist3 p q * dist3 p q = inner3 (diff3 p q) (diff3 p q).
Proof.
  intros; apply sqrt_sqrt. unfold inner3.
  pose proof (sq_pos (fst (fst (diff3 p q)))); pose proof (sq_pos (snd (fst (diff3 p q)))); pose proof (sq_pos (snd (diff3 p q))). lra.
Qed.
Lemma inner3_le_dist : forall a p q, inner3 a a <= 1 -> inner3 a q - inner3 a p <= dist3 p q.
Proof.
  intros a p q H. pose proof (dist3_sqr p q) as Hs. assert (Hn : 0 <= dist3 p q) by apply sqrt_pos.
  destruct a as [[a b] c], p as [[p1 p2] p3], q as [[q1 q2] q3].
  unfold inner3, diff3 in *; cbn [fst snd] in *.
  set (d := dist3 _ _) in *. set (u := q1 - p1). set (v := q2 - p2). set (w := q3 - p3).
  replace (a * q1 + b * q2 + c * q3 - (a * p1 + b * p2 + c * p3)) with (a * u + b * v + c * w) by (unfold u, v, w; ring).
  assert (Hd : d * d = u * u + v * v + w * w) by (rewrite Hs; unfold u, v, w; ring).
  clearbody d u v w. clear Hs.
  destruct (Rle_or_lt (a * u + b * v + c * w) 0) as [Hz | Hz]; [lra |].
  assert (Hc : (a * u + b * v + c * w) * (a * u + b * v + c * w) <= d * d).
  { rewrite Hd.
    pose proof (sq_pos (a * v - b * u)); pose proof (sq_pos (a * w - c * u)); pose proof (sq_pos (b * w - c * v)).
    pose proof (sq_pos u); pose proof (sq_pos v); pose proof (sq_pos w).
    assert (0 <= (u * u + v * v + w * w) * (1 - (a * a + b * b + c * c))) by (apply Rmult_le_pos; lra).
    lra. }
  nra.
Qed.
Lemma hull3_halfspace : forall vs a b,
  (forall v, In v vs -> inner3 a v <= b) -> forall x, hull3 vs x -> inner3 a x <= b.
Proof.
  intros vs a b H x Hx; induction Hx as [v Hv | s p q Hs _ IHp _ IHq]; auto.
  replace (inner3 a _) with ((1 - s) * inner3 a p + s * inner3 a q) by (unfold inner3; cbn [fst snd]; ring). nra.
Qed.
Lemma collision_free3 : forall a b vchk rv sd eps position ochk ro opos,
  norm_con3 a <= 0 ->
  (forall c, In c vchk -> veh_con3 a b c position rv sd eps <= 0) ->
  (forall c, In c ochk -> obs_con3 a b c opos ro <= 0) ->
  forall x y, hull3 (map (plus3 position) vchk) x -> hull3 (map (plus3 opos) ochk) y ->
  rv + ro + (sd - eps) <= dist3 x y.
Proof.
  intros a b vchk rv sd eps position ochk ro opos Ha Hv Ho x y Hx Hy.
  unfold norm_con3 in Ha. rewrite dot3_inner in Ha.
  assert (Hpc : forall p q, plus3 p q = plus3 q p) by (intros [[? ?] ?] [[? ?] ?]; unfold plus3; cbn [fst snd]; f_equal; [f_equal |]; ring).
  assert (A : inner3 a x <= b - rv - sd + eps).
  { apply (hull3_halfspace (map (plus3 position) vchk)); auto. intros v Hi. apply in_map_iff in Hi as [c [<- Hi]].
    apply Hv in Hi. unfold veh_con3 in Hi. rewrite dot3_inner, add3_plus, Hpc in Hi. lra. }
  assert (B : inner3 (- fst (fst a), - snd (fst a), - snd a) y <= - (b + ro)).
  { apply (hull3_halfspace (map (plus3 opos) ochk)); auto. intros v Hi. apply in_map_iff in Hi as [c [<- Hi]].
    apply Ho in Hi. unfold obs_con3 in Hi. rewrite dot3_inner, add3_plus, Hpc in Hi.
    unfold inner3 in *; cbn [fst snd] in *. lra. }
  pose proof (inner3_le_dist a x y) as C. assert (D : inner3 (- fst (fst a), - snd (fst a), - snd a) y = - inner3 a y)
    by (unfold inner3; cbn [fst snd]; ring). lra.
Qed.
Lemma room3_sound : forall lo hi rpos chk position,
  (forall c e, In c chk -> In e (room_cons3 lo hi rpos c position) -> e <= 0) ->
  forall x, hull3 (map (plus3 position) chk) x ->
  let '(x1, x2, x3) := x in let '(l1, l2, l3) := plus3 lo rpos in let '(h1, h2, h3) := plus3 hi rpos in
  l1 <= x1 <= h1 /\ l2 <= x2 <= h2 /\ l3 <= x3 <= h3.
Proof.
  intros [[l0 l1] l2] [[h0 h1] h2] [[r0 r1] r2] chk [[q0 q1] q2] H x Hx.
  induction Hx as [v Hv | s [[x0 x1] x2] [[y0 y1] y2] Hs _ IHp _ IHq].
  - apply in_map_iff in Hv as [[[c0 c1] c2] [<- Hv]]. pose proof (fun e => H _ e Hv) as Hc.
    unfold room_cons3, add3 in Hc. unfold plus3; cbn [fst snd].
    assert (E1 := Hc _ (or_introl eq_refl)). assert (E2 := Hc _ (or_intror (or_introl eq_refl))).
    assert (E3 := Hc _ (or_intror (or_intror (or_introl eq_refl)))).
    assert (E4 := Hc _ (or_intror (or_intror (or_intror (or_introl eq_refl))))).
    assert (E5 := Hc _ (or_intror (or_intror (or_intror (or_intror (or_introl eq_refl)))))).
    assert (E6 := Hc _ (or_intror (or_intror (or_intror (or_intror (or_intror (or_introl eq_refl))))))).
    lra.
  - unfold plus3 in *; cbn [fst snd] in *. repeat split; nra.
Qed.

(* Shape3D.rotate is the composition of the turns about x, y and z *)
Lemma rotate3_turns : forall roll pitch yaw v, rotate3 roll pitch yaw v = turn_z yaw (turn_y pitch (turn_x roll v)).
Proof.
  intros roll pitch yaw [[x y] z]. unfold rotate3, turn_x, turn_y, turn_z; cbn [fst snd].
  apply f_equal2; [apply f_equal2 |]; ring.
Qed.
Lemma turn_x_inner : forall r u v, inner3 (turn_x r u) (turn_x r v) = inner3 u v.
Proof.
  intros r [[a b] c] [[d e] f]; unfold inner3, turn_x; cbn [fst snd].
  transitivity (a * d + (cos r * cos r + sin r * sin r) * (b * e + c * f)); [ring | rewrite cs2; ring].
Qed.
Lemma turn_y_inner : forall r u v, inner3 (turn_y r u) (turn_y r v) = inner3 u v.
Proof.
  intros r [[a b] c] [[d e] f]; unfold inner3, turn_y; cbn [fst snd].
  transitivity (b * e + (cos r * cos r + sin r * sin r) * (a * d + c * f)); [ring | rewrite cs2; ring].
Qed.
Lemma turn_z_inner : forall r u v, inner3 (turn_z r u) (turn_z r v) = inner3 u v.
Proof.
  intros r [[a b] c] [[d e] f]; unfold inner3, turn_z; cbn [fst snd].
  transitivity (c * f + (cos r * cos r + sin r * sin r) * (a * d + b * e)); [ring | rewrite cs2; ring].
Qed.
Lemma rotate3_inner : forall roll pitch yaw u v,
  inner3 (rotate3 roll pitch yaw u) (rotate3 roll pitch yaw v) = inner3 u v.
Proof. intros. rewrite !rotate3_turns, turn_z_inner, turn_y_inner, turn_x_inner. reflexivity. Qed.

(* distance_to_rectangle for an upright rectangle *)
Lemma dtl_vert : forall p x y1 y2, y1 <> y2 -> distance_to_line p (x, y1) (x, y2) = Rabs (fst p - x).
Proof.
  intros p x y1 y2 H. unfold distance_to_line; cbn [fst snd].
  replace ((y2 - y1) * fst p - (x - x) * snd p + x * y1 - y2 * x) with ((y2 - y1) * (fst p - x)) by ring.
  replace ((y2 - y1) ^ 2 + (x - x) ^ 2) with (Rsqr (y2 - y1)) by (unfold Rsqr; ring).
  rewrite sqrt_Rsqr_abs, Rabs_mult. field. apply Rabs_no_R0. lra.
Qed.
Lemma dtl_horz : forall p x1 x2 y, x1 <> x2 -> distance_to_line p (x1, y) (x2, y) = Rabs (snd p - y).
Proof.
  intros p x1 x2 y H. unfold distance_to_line; cbn [fst snd].
  replace ((y - y) * fst p - (x2 - x1) * snd p + x2 * y - y * x1) with ((x1 - x2) * (snd p - y)) by ring.
  replace ((y - y) ^ 2 + (x2 - x1) ^ 2) with (Rsqr (x1 - x2)) by (unfold Rsqr; ring).
  rewrite sqrt_Rsqr_abs, Rabs_mult. field. apply Rabs_no_R0. lra.
Qed.
Lemma upright_vertices : forall w h, rectangle_vertices w h 0 =
  [(w / 2, h / 2); (w / 2, - (h / 2)); (- (w / 2), - (h / 2)); (- (w / 2), h / 2)].
Proof. intros. rewrite rectangle_vertices_eq. cbn [map]. rewrite !turned0. reflexivity. Qed.
Lemma dtr_upright : forall p w h pos, 0 < w -> 0 < h ->
  let left := fst pos - w / 2 in let right := fst pos + w / 2 in
  let bottom := snd pos - h / 2 in let top := snd pos + h / 2 in
  fst (distance_to_rectangle p (rectangle_vertices w h 0) pos) =
  (if Rltb (Rabs (fst p - left)) (Rabs (fst p - right)) then - Rabs (fst p - left) else Rabs (fst p - right),
   if Rltb (Rabs (snd p - bottom)) (Rabs (snd p - top)) then Rabs (snd p - bottom) else - Rabs (snd p - top)).
Proof.
  intros p w h [u v] Hw Hh left right bottom top. rewrite upright_vertices.
  unfold distance_to_rectangle. cbn [map fst snd shift xs ys].
  assert (X1 : amin [w / 2 + u; w / 2 + u; - (w / 2) + u; - (w / 2) + u] = left).
  { unfold left, amin, row_min; cbn [fold_right fst]. unfold Rmin; repeat destruct Rle_dec; lra. }
  assert (X2 : amax [w / 2 + u; w / 2 + u; - (w / 2) + u; - (w / 2) + u] = right).
  { unfold right, amax, row_max; cbn [fold_right fst]. unfold Rmax; repeat destruct Rle_dec; lra. }
  assert (Y1 : amax [h / 2 + v; - (h / 2) + v; - (h / 2) + v; h / 2 + v] = top).
  { unfold top, amax, row_max; cbn [fold_right snd]. unfold Rmax; repeat destruct Rle_dec; lra. }
  assert (Y2 : amin [h / 2 + v; - (h / 2) + v; - (h / 2) + v; h / 2 + v] = bottom).
  { unfold bottom, amin, row_min; cbn [fold_right snd]. unfold Rmin; repeat destruct Rle_dec; lra. }
  rewrite X1, X2, Y1, Y2.
  assert (left <> right) by (unfold left, right; cbn [fst]; lra).
  assert (bottom <> top) by (unfold bottom, top; cbn [snd]; lra).
  rewrite !dtl_vert, !dtl_horz by auto. rewrite !Rabs_Ropp, !Rabs_Rabsolu. reflexivity.
Qed.
