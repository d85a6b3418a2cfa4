(* Proofs about arc sampling and rooms around G-code lines and arcs. *)
Require Import Reals List Lra Lia Bool Arith.
From Verif Require Import Angle_Model Angle_Proofs Geom_Model Geom_Spec Geom_Proofs Geom_Proofs2 Geom_Proofs3
  Gmove_Model Gmove_Spec.
Import ListNotations.
Open Scope R_scope.

(* ---------- angles of arcs ---------- *)

Lemma cw_start_turns : forall a b, turns (cw_start a b) a.
Proof.
  intros a b. unfold cw_start. destruct (Rlt_dec a b); [exists 1%Z; lra|apply turns_refl].
Qed.
Lemma ccw_end_turns : forall a b, turns (ccw_end a b) b.
Proof.
  intros a b. unfold ccw_end. destruct (Rlt_dec b a); [exists 1%Z; lra|apply turns_refl].
Qed.
Lemma cw_arc_range : forall a b, - PI < a <= PI -> - PI < b <= PI -> 0 <= cw_arc a b < 2 * PI.
Proof.
  intros a b A B. unfold cw_arc, cw_start. destruct (Rlt_dec a b); lra.
Qed.
Lemma ccw_arc_range : forall a b, - PI < a <= PI -> - PI < b <= PI -> 0 <= ccw_arc a b < 2 * PI.
Proof.
  intros a b A B. unfold ccw_arc, ccw_end. destruct (Rlt_dec b a); lra.
Qed.
Lemma cw_arc_turns : forall a b, turns (cw_arc a b) (a - b).
Proof.
  intros a b. unfold cw_arc. destruct (cw_start_turns a b) as (z & ->). exists z. ring.
Qed.
Lemma ccw_arc_turns : forall a b, turns (ccw_arc a b) (b - a).
Proof.
  intros a b. unfold ccw_arc. destruct (ccw_end_turns a b) as (z & ->). exists z. ring.
Qed.

(* ---------- sampling ---------- *)

Lemma dist_xy_hyp : forall c p, dist_xy c p = sqrt ((x3 p - x3 c) * (x3 p - x3 c) + (y3 p - y3 c) * (y3 p - y3 c)).
Proof. intros; unfold dist_xy. f_equal. ring. Qed.
Lemma dist_xyz_xy : forall c p, z3 c = z3 p -> dist_xyz c p = dist_xy c p.
Proof. intros c p E. unfold dist_xyz, dist_xy. rewrite E. f_equal. ring. Qed.
Lemma dist_xy_le : forall c p, dist_xy c p <= dist_xyz c p.
Proof.
  intros c p. unfold dist_xyz, dist_xy. apply sqrt_le_1_alt. pose proof (pow2_ge_0 (z3 p - z3 c)). lra.
Qed.
Lemma at_own_angle : forall c p, x3 c + dist_xy c p * cos (angle_at c p) = x3 p /\
  y3 c + dist_xy c p * sin (angle_at c p) = y3 p.
Proof.
  intros c p. rewrite dist_xy_hyp. unfold angle_at.
  destruct (atan2_polar (y3 p - y3 c) (x3 p - x3 c)) as (C & S). split; lra.
Qed.
Lemma pt3_eta : forall p : R * R * R, (x3 p, y3 p, z3 p) = p.
Proof. intros [[x y] z]; reflexivity. Qed.

Lemma nth_map_R : forall (f : R -> R * R * R) l k d d0, (k < length l)%nat -> nth k (map f l) d = f (nth k l d0).
Proof.
  intros f l k d d0 H. rewrite (nth_indep _ d (f d0)) by (rewrite map_length; exact H). apply map_nth.
Qed.

Lemma coords02_nth : forall c s e k d, (k < 20)%nat ->
  nth k (coords02 c s e) d =
  on_arc c (radius02 c s) (z3 s)
    (cw_start (angle_at c s) (angle_at c e) - INR k * (cw_arc (angle_at c s) (angle_at c e) / 19)).
Proof.
  intros c s e k d H. unfold coords02. rewrite (nth_map_R _ _ _ _ 0) by (rewrite linspace_length; exact H).
  rewrite linspace_nth by exact H. f_equal. unfold cw_arc.
  replace (INR (20 - 1)) with 19 by (simpl; lra). field.
Qed.
Lemma coords03_nth : forall c s e k d, (k < 20)%nat ->
  nth k (coords03 c s e) d =
  on_arc c (radius03 c s) (z3 s)
    (angle_at c s + INR k * (ccw_arc (angle_at c s) (angle_at c e) / 19)).
Proof.
  intros c s e k d H. unfold coords03. rewrite (nth_map_R _ _ _ _ 0) by (rewrite linspace_length; exact H).
  rewrite linspace_nth by exact H. f_equal. unfold ccw_arc.
  replace (INR (20 - 1)) with 19 by (simpl; lra). field.
Qed.
Lemma coords_length : forall c s e, length (coords02 c s e) = 20%nat /\ length (coords03 c s e) = 20%nat.
Proof. intros. unfold coords02, coords03. rewrite !map_length, !linspace_length. auto. Qed.

Lemma on_arc_turns : forall c r z a b, turns a b -> on_arc c r z a = on_arc c r z b.
Proof. intros c r z a b T. destruct (turns_cos _ _ T) as (C & S). unfold on_arc. rewrite C, S. reflexivity. Qed.

Lemma coords02_first : forall c s e d, z3 c = z3 s -> nth 0 (coords02 c s e) d = s.
Proof.
  intros c s e d Z. rewrite coords02_nth by lia. simpl INR. rewrite Rmult_0_l, Rminus_0_r.
  rewrite (on_arc_turns _ _ _ _ (angle_at c s)) by apply cw_start_turns.
  unfold on_arc, radius02. rewrite dist_xyz_xy by exact Z. destruct (at_own_angle c s) as (-> & ->). apply pt3_eta.
Qed.
Lemma coords03_first : forall c s e d, nth 0 (coords03 c s e) d = s.
Proof.
  intros c s e d. rewrite coords03_nth by lia. simpl INR. rewrite Rmult_0_l, Rplus_0_r.
  unfold on_arc, radius03. destruct (at_own_angle c s) as (-> & ->). apply pt3_eta.
Qed.
Lemma coords02_last : forall c s e d, z3 c = z3 s -> dist_xy c e = dist_xy c s ->
  nth 19 (coords02 c s e) d = (x3 e, y3 e, z3 s).
Proof.
  intros c s e d Z E. rewrite coords02_nth by lia.
  replace (INR 19) with 19 by (simpl; lra).
  replace (cw_start (angle_at c s) (angle_at c e) - 19 * (cw_arc (angle_at c s) (angle_at c e) / 19))
    with (angle_at c e) by (unfold cw_arc; field).
  unfold on_arc, radius02. rewrite dist_xyz_xy by exact Z. rewrite <- E. destruct (at_own_angle c e) as (-> & ->). reflexivity.
Qed.
Lemma coords03_last : forall c s e d, dist_xy c e = dist_xy c s ->
  nth 19 (coords03 c s e) d = (x3 e, y3 e, z3 s).
Proof.
  intros c s e d E. rewrite coords03_nth by lia.
  replace (INR 19) with 19 by (simpl; lra).
  replace (angle_at c s + 19 * (ccw_arc (angle_at c s) (angle_at c e) / 19))
    with (ccw_end (angle_at c s) (angle_at c e)) by (unfold ccw_arc; field).
  rewrite (on_arc_turns _ _ _ _ (angle_at c e)) by apply ccw_end_turns.
  unfold on_arc, radius03. rewrite <- E. destruct (at_own_angle c e) as (-> & ->). reflexivity.
Qed.

Lemma angle_at_range : forall c p, - PI < angle_at c p <= PI.
Proof. intros; apply atan2_range. Qed.

Lemma coords02_turn : forall c s e, exists a0 arc, 0 <= arc < 2 * PI /\
  forall k d, (k < 20)%nat ->
    nth k (coords02 c s e) d =
    (x3 c + dist_xyz c s * cos (a0 - arc * INR k / 19), y3 c + dist_xyz c s * sin (a0 - arc * INR k / 19), z3 s).
Proof.
  intros c s e. exists (cw_start (angle_at c s) (angle_at c e)), (cw_arc (angle_at c s) (angle_at c e)).
  split; [apply cw_arc_range; apply angle_at_range|]. intros k d H. rewrite coords02_nth by exact H. unfold on_arc, radius02.
  replace (INR k * (cw_arc (angle_at c s) (angle_at c e) / 19)) with (cw_arc (angle_at c s) (angle_at c e) * INR k / 19) by field.
  reflexivity.
Qed.
Lemma coords03_turn : forall c s e, exists a0 arc, 0 <= arc < 2 * PI /\
  forall k d, (k < 20)%nat ->
    nth k (coords03 c s e) d =
    (x3 c + dist_xy c s * cos (a0 + arc * INR k / 19), y3 c + dist_xy c s * sin (a0 + arc * INR k / 19), z3 s).
Proof.
  intros c s e. exists (angle_at c s), (ccw_arc (angle_at c s) (angle_at c e)).
  split; [apply ccw_arc_range; apply angle_at_range|]. intros k d H. rewrite coords03_nth by exact H. unfold on_arc, radius03.
  replace (INR k * (ccw_arc (angle_at c s) (angle_at c e) / 19)) with (ccw_arc (angle_at c s) (angle_at c e) * INR k / 19) by field.
  reflexivity.
Qed.

Lemma full_circle_lost : forall c s, Forall (fun p => p = s) (coords03 c s s).
Proof.
  intros c s. apply Forall_forall. intros p H.
  destruct (In_nth _ _ (0, 0, 0) H) as (k & K & E). rewrite (proj2 (coords_length c s s)) in K.
  rewrite coords03_nth in E by exact K. subst p.
  assert (A : ccw_arc (angle_at c s) (angle_at c s) = 0).
  { unfold ccw_arc, ccw_end. destruct (Rlt_dec (angle_at c s) (angle_at c s)); lra. }
  rewrite A. replace (angle_at c s + INR k * (0 / 19)) with (angle_at c s) by field.
  unfold on_arc, radius03. destruct (at_own_angle c s) as (-> & ->). apply pt3_eta.
Qed.

(* ---------- rooms around lines ---------- *)

Lemma abs_le_sq : forall a b, 0 <= b -> a * a <= b * b -> Rabs a <= b.
Proof.
  intros a b B H. apply Rabs_le. split.
  - destruct (Rle_dec (- b) a); [assumption|]. exfalso. assert (b * b < a * a) by nra. lra.
  - destruct (Rle_dec a b); [assumption|]. exfalso. assert (b * b < a * a) by nra. lra.
Qed.
Lemma turned_small : forall o ex ey t, 0 <= t -> ex * ex + ey * ey <= t * t ->
  Rabs (cos o * ex + sin o * ey) <= t /\ Rabs (- sin o * ex + cos o * ey) <= t.
Proof.
  intros o ex ey t T H. pose proof (cs2 o) as CS.
  assert (ID : (cos o * ex + sin o * ey) * (cos o * ex + sin o * ey) +
               (- sin o * ex + cos o * ey) * (- sin o * ex + cos o * ey) = ex * ex + ey * ey).
  { transitivity ((cos o * cos o + sin o * sin o) * (ex * ex + ey * ey)); [ring|rewrite CS; ring]. }
  pose proof (sq_pos (cos o * ex + sin o * ey)). pose proof (sq_pos (- sin o * ex + cos o * ey)).
  split; apply abs_le_sq; lra.
Qed.

Lemma dist_le_sq : forall x y t, dist x y <= t ->
  0 <= t /\ (fst x - fst y) * (fst x - fst y) + (snd x - snd y) * (snd x - snd y) <= t * t.
Proof.
  intros x y t H. unfold dist, Rsqr in H.
  set (q := (fst x - fst y) * (fst x - fst y) + (snd x - snd y) * (snd x - snd y)) in *.
  assert (Q : 0 <= q) by (unfold q; pose proof (sq_pos (fst x - fst y)); pose proof (sq_pos (snd x - snd y)); lra).
  pose proof (sqrt_pos q). split; [lra|].
  rewrite <- (sqrt_sqrt q Q). apply sq_mono. lra.
Qed.

(* a rectangle of length L + 2t and height 2t whose centre lies half way along the
   direction o from p contains everything within t of the piece of length L *)
Lemma strip_covers : forall p o L t x, 0 <= L ->
  near_segment p (fst p + L * cos o, snd p + L * sin o) t x ->
  forall W, L + 2 * t <= W ->
  in_rect (fst p + L / 2 * cos o, snd p + L / 2 * sin o) W (2 * t) o x.
Proof.
  intros [px py] o L t [xx xy] HL (y & (s & S & ->) & D) W HW.
  destruct (dist_le_sq _ _ _ D) as (T & Q). unfold between in Q; cbn [fst snd] in *.
  set (ex := xx - (px + s * (px + L * cos o - px))) in *.
  set (ey := xy - (py + s * (py + L * sin o - py))) in *.
  destruct (turned_small o ex ey t T Q) as (A & B). pose proof (cs2 o) as CS.
  unfold in_rect; cbn [fst snd].
  assert (E1 : cos o * (xx - (px + L / 2 * cos o)) + sin o * (xy - (py + L / 2 * sin o)) =
               (s - 1 / 2) * L + (cos o * ex + sin o * ey)).
  { unfold ex, ey. transitivity (cos o * (xx - px) + sin o * (xy - py) - L / 2 * (cos o * cos o + sin o * sin o)); [field|].
    transitivity ((s - 1 / 2) * L + cos o * (xx - px) + sin o * (xy - py) - s * L * (cos o * cos o + sin o * sin o)); [|ring].
    rewrite CS. field. }
  assert (E2 : - sin o * (xx - (px + L / 2 * cos o)) + cos o * (xy - (py + L / 2 * sin o)) =
               - sin o * ex + cos o * ey) by (unfold ex, ey; ring).
  rewrite E1, E2. split; [|lra].
  eapply Rle_trans; [apply Rabs_triang|]. apply Rle_trans with (L / 2 + t); [|lra].
  apply Rplus_le_compat; [|exact A]. apply Rabs_le. split; nra.
Qed.

(* and it contains nothing farther away than sqrt 2 times t *)
Lemma strip_tight : forall p o L t x, 0 <= L -> 0 <= t ->
  in_rect (fst p + L / 2 * cos o, snd p + L / 2 * sin o) (L + 2 * t) (2 * t) o x ->
  near_segment p (fst p + L * cos o, snd p + L * sin o) (sqrt 2 * t) x.
Proof.
  intros [px py] o L t [xx xy] HL T (U & V). cbn [fst snd] in *. pose proof (cs2 o) as CS.
  set (u := cos o * (xx - (px + L / 2 * cos o)) + sin o * (xy - (py + L / 2 * sin o))) in *.
  set (v := - sin o * (xx - (px + L / 2 * cos o)) + cos o * (xy - (py + L / 2 * sin o))) in *.
  assert (U' : - (L / 2 + t) <= u <= L / 2 + t).
  { apply Rabs_def2 in U || idtac. pose proof (Rle_abs u). pose proof (Rle_abs (- u)). rewrite Rabs_Ropp in *. lra. }
  assert (V' : - t <= v <= t).
  { pose proof (Rle_abs v). pose proof (Rle_abs (- v)). rewrite Rabs_Ropp in *. lra. }
  set (m := Rmax 0 (Rmin L (u + L / 2))).
  assert (M : 0 <= m <= L).
  { unfold m. split; [apply Rmax_l|]. apply Rmax_lub; [exact HL|apply Rmin_l]. }
  assert (DU : - t <= u + L / 2 - m <= t).
  { unfold m, Rmax, Rmin. destruct (Rle_dec L (u + L / 2)); destruct (Rle_dec 0 _); lra. }
  assert (X1 : xx = px + (u + L / 2) * cos o - v * sin o).
  { transitivity (px + L / 2 * cos o + (cos o * cos o + sin o * sin o) * (xx - (px + L / 2 * cos o))); [rewrite CS; ring|].
    unfold u, v. field. }
  assert (X2 : xy = py + (u + L / 2) * sin o + v * cos o).
  { transitivity (py + L / 2 * sin o + (cos o * cos o + sin o * sin o) * (xy - (py + L / 2 * sin o))); [rewrite CS; ring|].
    unfold u, v. field. }
  clearbody u v m.
  exists (px + m * cos o, py + m * sin o). split.
  - destruct (Req_dec L 0) as [E|E].
    + exists 0. split; [lra|]. unfold between; cbn [fst snd]. assert (m = 0) by lra. subst m. f_equal; ring.
    + exists (m / L). split.
      * split; [apply Rmult_le_pos; [lra|left; apply Rinv_0_lt_compat; lra]|].
        apply (Rmult_le_reg_r L); [lra|]. replace (m / L * L) with m by (field; lra). lra.
      * unfold between; cbn [fst snd]. f_equal; field; exact E.
  - unfold dist, Rsqr; cbn [fst snd]. rewrite X1, X2.
    replace (sqrt 2 * t) with (sqrt (2 * (t * t))).
    2:{ rewrite sqrt_mult_alt by lra. rewrite sqrt_square by exact T. reflexivity. }
    apply sqrt_le_1_alt.
    replace ((px + (u + L / 2) * cos o - v * sin o - (px + m * cos o)) * (px + (u + L / 2) * cos o - v * sin o - (px + m * cos o)) +
             (py + (u + L / 2) * sin o + v * cos o - (py + m * sin o)) * (py + (u + L / 2) * sin o + v * cos o - (py + m * sin o)))
      with ((cos o * cos o + sin o * sin o) * ((u + L / 2 - m) * (u + L / 2 - m) + v * v)) by ring.
    rewrite CS. assert ((u + L / 2 - m) * (u + L / 2 - m) <= t * t) by nra. assert (v * v <= t * t) by nra. lra.
Qed.

Lemma direction : forall s e, x3 s + dist_xy s e * cos (orientation s e) = x3 e /\
  y3 s + dist_xy s e * sin (orientation s e) = y3 e.
Proof. intros s e. apply (at_own_angle s e). Qed.
Lemma dist_xy_pos : forall s e, 0 <= dist_xy s e.
Proof. intros; apply sqrt_pos. Qed.
Lemma flat_end : forall s e, flat e = (fst (flat s) + dist_xy s e * cos (orientation s e),
                                      snd (flat s) + dist_xy s e * sin (orientation s e)).
Proof.
  intros s e. destruct (direction s e) as (A & B). unfold flat, x3, y3 in *. cbn [fst snd]. rewrite A, B. reflexivity.
Qed.
Lemma line_room_center : forall tol s e, flat (lpos (line_room tol s e)) =
  (fst (flat s) + dist_xy s e / 2 * cos (orientation s e), snd (flat s) + dist_xy s e / 2 * sin (orientation s e)).
Proof.
  intros tol s e. destruct (direction s e) as (A & B). unfold line_room, flat; cbn [lpos fst snd]. unfold x3, y3 in *.
  f_equal; lra.
Qed.

Lemma line_room_covers : forall tol s e x,
  near_segment (flat s) (flat e) tol x ->
  let r := line_room tol s e in in_rect (flat (lpos r)) (lw r) (lh r) (lo r) x.
Proof.
  intros tol s e x H r. unfold r. rewrite line_room_center. cbn [line_room lw lh lo].
  apply (strip_covers (flat s) (orientation s e) (dist_xy s e) tol x).
  - apply dist_xy_pos.
  - rewrite <- flat_end. exact H.
  - pose proof (dist_xy_le s e). lra.
Qed.
Lemma line_room_tight : forall tol s e x, 0 <= tol -> z3 s = z3 e ->
  (let r := line_room tol s e in in_rect (flat (lpos r)) (lw r) (lh r) (lo r) x) ->
  near_segment (flat s) (flat e) (sqrt 2 * tol) x.
Proof.
  intros tol s e x T Z H. cbv zeta in H. rewrite line_room_center in H. cbn [line_room lw lh lo] in H.
  rewrite (dist_xyz_xy _ _ Z) in H. rewrite (flat_end s e).
  apply strip_tight; [apply dist_xy_pos|exact T|exact H].
Qed.

Lemma flat_line : forall tol s e x, near_segment (flat s) (flat e) tol x -> 0 <= tol.
Proof. intros tol s e x (y & _ & D). pose proof (dist_le_sq _ _ _ D) as (A & _). exact A. Qed.

(* the three rooms of a split level move *)
Lemma line_rooms3_chain : forall tol tols sp s e, z3 s = z3 e ->
  exists r1 r2 r3, line_rooms3 tol tols sp s e = [r1; r2; r3] /\
    lstart r1 = s /\ lend r1 = lstart r2 /\ lend r2 = lstart r3 /\ lend r3 = e /\
    (lw r1 - 2 * tol) + (lw r2 - 2 * tols) + (lw r3 - 2 * tol) = dist_xyz s e.
Proof.
  intros tol tols sp s e Z. unfold line_rooms3. do 3 eexists. split; [reflexivity|].
  cbn [lstart lend lw]. repeat split; try reflexivity. ring.
Qed.

Lemma line_rooms3_covers : forall tol tols sp s e, z3 s = z3 e -> 0 <= sp <= 1 / 2 ->
  exists r1 r2 r3, line_rooms3 tol tols sp s e = [r1; r2; r3] /\
    (forall x, near_segment (flat (lstart r1)) (flat (lend r1)) tol x -> in_rect (flat (lpos r1)) (lw r1) (lh r1) (lo r1) x) /\
    (forall x, near_segment (flat (lstart r2)) (flat (lend r2)) tols x -> in_rect (flat (lpos r2)) (lw r2) (lh r2) (lo r2) x) /\
    (forall x, near_segment (flat (lstart r3)) (flat (lend r3)) tol x -> in_rect (flat (lpos r3)) (lw r3) (lh r3) (lo r3) x).
Proof.
  intros tol tols sp s e Z SP. unfold line_rooms3. do 3 eexists. split; [reflexivity|].
  cbn [lstart lend lw lh lo lpos]. rewrite (dist_xyz_xy _ _ Z). set (o := orientation s e). set (D := dist_xy s e).
  assert (DP : 0 <= D) by apply dist_xy_pos. destruct (direction s e) as (EX & EY). fold o D in EX, EY.
  unfold flat; cbn [fst snd]. unfold x3, y3 in *. split; [|split].
  - intros x H. pose proof (strip_covers (fst (fst s), snd (fst s)) o (sp * D) tol x) as C. cbn [fst snd] in C.
    replace (1 / 2 * (sp * D)) with (sp * D / 2) by field. apply C; [nra|exact H|lra].
  - intros x H. pose proof (strip_covers (fst (fst s) + sp * D * cos o, snd (fst s) + sp * D * sin o) o ((1 - 2 * sp) * D) tols x) as C.
    cbn [fst snd] in C.
    replace (fst (fst s) + (sp * D + 1 / 2 * ((1 - 2 * sp) * D)) * cos o)
      with (fst (fst s) + sp * D * cos o + (1 - 2 * sp) * D / 2 * cos o) by field.
    replace (snd (fst s) + (sp * D + 1 / 2 * ((1 - 2 * sp) * D)) * sin o)
      with (snd (fst s) + sp * D * sin o + (1 - 2 * sp) * D / 2 * sin o) by field.
    apply C; [nra| |lra].
    replace (fst (fst s) + sp * D * cos o + (1 - 2 * sp) * D * cos o)
      with (fst (fst s) + (sp * D + (1 - 2 * sp) * D) * cos o) by ring.
    replace (snd (fst s) + sp * D * sin o + (1 - 2 * sp) * D * sin o)
      with (snd (fst s) + (sp * D + (1 - 2 * sp) * D) * sin o) by ring.
    exact H.
  - intros x H.
    set (p3 := (fst (fst s) + (sp * D + (1 - 2 * sp) * D) * cos o, snd (fst s) + (sp * D + (1 - 2 * sp) * D) * sin o)) in *.
    pose proof (strip_covers p3 o (sp * D) tol x) as C. cbn [fst snd] in C.
    replace (fst (fst e) - 1 / 2 * (sp * D) * cos o) with (fst p3 + sp * D / 2 * cos o)
      by (unfold p3; cbn [fst]; rewrite <- EX; field).
    replace (snd (fst e) - 1 / 2 * (sp * D) * sin o) with (snd p3 + sp * D / 2 * sin o)
      by (unfold p3; cbn [snd]; rewrite <- EY; field).
    apply C; [nra| |lra].
    replace (fst p3 + sp * D * cos o) with (fst (fst e)) by (unfold p3; cbn [fst]; rewrite <- EX; ring).
    replace (snd p3 + sp * D * sin o) with (snd (fst e)) by (unfold p3; cbn [snd]; rewrite <- EY; ring).
    exact H.
Qed.
