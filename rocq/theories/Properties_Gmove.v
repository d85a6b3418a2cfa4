(* Properties of G-code segments: arc sampling, rooms, switching test, motion time. *)
Require Import Reals List Lra Lia Bool Arith.
From Verif Require Import Angle_Model Angle_Proofs Geom_Model Geom_Spec Geom_Proofs Geom_Proofs2 Gmove_Model Gmove_Spec
  Gmove_Proofs Gmove_Proofs2 Gmove_Proofs3.
Import ListNotations.
Open Scope R_scope.

(* the first sample is the start; for G02 when the centre has the height of the start *)
Theorem C43_first : forall c s e d, nth 0 (coords03 c s e) d = s /\ (z3 c = z3 s -> nth 0 (coords02 c s e) d = s).
Proof.  intros c s e d. split; [apply coords03_first|apply coords02_first]. Qed.
Example C43_first_ex : z3 (1, 2, 0) = z3 (4, 2, 0).
Proof. reflexivity. Qed.
Print Assumptions C43_first.

(* the last sample lies at the end, at the height of the start *)
Theorem C43_last : forall c s e d, dist_xy c e = dist_xy c s ->
  nth 19 (coords03 c s e) d = (x3 e, y3 e, z3 s) /\
  (z3 c = z3 s -> nth 19 (coords02 c s e) d = (x3 e, y3 e, z3 s)).
Proof.  intros c s e d E. split; [apply coords03_last; exact E|intros Z; apply coords02_last; assumption]. Qed.
Example C43_last_ex : dist_xy (0, 0, 0) (0, 3, 0) = dist_xy (0, 0, 0) (3, 0, 0).
Proof. unfold dist_xy, x3, y3; simpl. f_equal. ring. Qed.
Print Assumptions C43_last.

(* G02: twenty equally spaced points of one circle, clockwise over less than a turn *)
Theorem C43_clockwise : forall c s e, length (coords02 c s e) = 20%nat /\ exists a0 arc, 0 <= arc < 2 * PI /\
  forall k d, (k < 20)%nat -> nth k (coords02 c s e) d =
    (x3 c + dist_xyz c s * cos (a0 - arc * INR k / 19), y3 c + dist_xyz c s * sin (a0 - arc * INR k / 19), z3 s).
Proof.  intros c s e. split; [apply coords_length|apply coords02_turn]. Qed.
Print Assumptions C43_clockwise.

(* G03: the same counter-clockwise *)
Theorem C43_counter_clockwise : forall c s e, length (coords03 c s e) = 20%nat /\ exists a0 arc, 0 <= arc < 2 * PI /\
  forall k d, (k < 20)%nat -> nth k (coords03 c s e) d =
    (x3 c + dist_xy c s * cos (a0 + arc * INR k / 19), y3 c + dist_xy c s * sin (a0 + arc * INR k / 19), z3 s).
Proof.  intros c s e. split; [apply coords_length|apply coords03_turn]. Qed.
Print Assumptions C43_counter_clockwise.

(* a G02 arc above height 0 without K word: the radius includes the height and the samples miss the start *)
Theorem C43_height_refuted : exists c s e d, z3 s = z3 e /\ dist_xy c s = dist_xy c e /\ nth 0 (coords02 c s e) d <> s.
Proof.  exists (0, 0, 0), (3, 0, 4), (0, 3, 4), (0, 0, 0). split; [reflexivity|]. split.
  - unfold dist_xy, x3, y3; simpl. f_equal. ring.
  - rewrite coords02_nth by lia. simpl INR. rewrite Rmult_0_l, Rminus_0_r.
    rewrite (on_arc_turns _ _ _ _ _ (cw_start_turns _ _)).
    unfold on_arc, radius02, dist_xyz, angle_at, atan2, x3, y3, z3; cbn [fst snd].
    destruct (Rlt_dec 0 (3 - 0)); [|lra]. replace ((0 - 0) / (3 - 0)) with 0 by field. rewrite atan_0, cos_0, sin_0.
    replace ((3 - 0) ^ 2 + (0 - 0) ^ 2 + (4 - 0) ^ 2) with (5 * 5) by ring. rewrite sqrt_square by lra.
    intros E. injection E. intros. lra. Qed.
Print Assumptions C43_height_refuted.

(* a full circle, given by equal start and end, is sampled as a single point *)
Theorem C43_full_circle_refuted : exists c s, s <> c /\ Forall (fun p => p = s) (coords03 c s s).
Proof.  exists (0, 0, 0), (1, 0, 0). split; [intros E; injection E; lra|]. apply full_circle_lost. Qed.
Print Assumptions C43_full_circle_refuted.

(* the room of a straight move contains every point within the tolerance of the move *)
Theorem C44_room : forall tol s e x, near_segment (flat s) (flat e) tol x ->
  let r := line_room tol s e in in_rect (flat (lpos r)) (lw r) (lh r) (lo r) x.
Proof. exact line_room_covers. Qed.
Example C44_room_ex : near_segment (flat (0, 0, 0)) (flat (4, 0, 0)) 1 (2, 1).
Proof.
  exists (2, 0). split; [exists (1 / 2); split; [lra|]; unfold between, flat; cbn [fst snd]; f_equal; field|].
  unfold dist, Rsqr; cbn [fst snd]. replace ((2 - 2) * (2 - 2) + (1 - 0) * (1 - 0)) with (1 * 1) by ring.
  rewrite sqrt_square; lra.
Qed.
Print Assumptions C44_room.

(* and, for level moves, nothing farther away than the diagonal of the tolerance *)
Theorem C44_tight : forall tol s e x, 0 <= tol -> z3 s = z3 e ->
  (let r := line_room tol s e in in_rect (flat (lpos r)) (lw r) (lh r) (lo r) x) ->
  near_segment (flat s) (flat e) (sqrt 2 * tol) x.
Proof. exact line_room_tight. Qed.
Print Assumptions C44_tight.

(* so the library's own point test accepts those points *)
Theorem C44_membership : forall tol s e x, 0 < tol -> near_segment (flat s) (flat e) tol x ->
  let r := line_room tol s e in
  point_in_polyhedron x (rectangle_vertices (lw r) (lh r) (lo r)) (flat (lpos r)) 0 = true.
Proof.  intros tol s e x T N r. assert (W : 0 < lw r /\ 0 < lh r).
  { unfold r, line_room; cbn [lw lh]. pose proof (dist_xy_pos s e). pose proof (dist_xy_le s e). lra. }
  apply in_rectangle_iff; [apply W|apply W|]. rewrite !Rmult_0_r, !Rplus_0_r. exact (line_room_covers tol s e x N). Qed.
Print Assumptions C44_membership.

(* split in three: the parts follow each other and their lengths add up *)
Theorem C44_chain : forall tol tols sp s e, z3 s = z3 e ->
  exists r1 r2 r3, line_rooms3 tol tols sp s e = [r1; r2; r3] /\
    lstart r1 = s /\ lend r1 = lstart r2 /\ lend r2 = lstart r3 /\ lend r3 = e /\
    (lw r1 - 2 * tol) + (lw r2 - 2 * tols) + (lw r3 - 2 * tol) = dist_xyz s e.
Proof. exact line_rooms3_chain. Qed.
Example C44_chain_ex : z3 (0, 0, 2) = z3 (3, 4, 2).
Proof. reflexivity. Qed.
Print Assumptions C44_chain.

(* each part covers its piece of a level move with its own tolerance *)
Theorem C44_parts : forall tol tols sp s e, z3 s = z3 e -> 0 <= sp <= 1 / 2 ->
  exists r1 r2 r3, line_rooms3 tol tols sp s e = [r1; r2; r3] /\
    (forall x, near_segment (flat (lstart r1)) (flat (lend r1)) tol x -> in_rect (flat (lpos r1)) (lw r1) (lh r1) (lo r1) x) /\
    (forall x, near_segment (flat (lstart r2)) (flat (lend r2)) tols x -> in_rect (flat (lpos r2)) (lw r2) (lh r2) (lo r2) x) /\
    (forall x, near_segment (flat (lstart r3)) (flat (lend r3)) tol x -> in_rect (flat (lpos r3)) (lw r3) (lh r3) (lo r3) x).
Proof. exact line_rooms3_covers. Qed.
Print Assumptions C44_parts.

(* for a change of height the parts are laid out along the plane and the third does not contain its own start *)
Theorem C44_parts_refuted : exists tol tols sp s e r1 r2 r3, 0 < tol /\ 0 <= sp <= 1 / 2 /\ line_rooms3 tol tols sp s e = [r1; r2; r3] /\
  ~ in_rect (flat (lpos r3)) (lw r3) (lh r3) (lo r3) (flat (lstart r3)).
Proof.  exists (1 / 10), (1 / 10), (1 / 10), (0, 0, 0), (0, 0, 10). do 3 eexists. split; [lra|]. split; [lra|]. split; [reflexivity|].
  cbn [lpos lw lh lo lstart]. unfold orientation, dist_xyz, x3, y3, z3, in_rect, flat; cbn [fst snd].
  replace (sqrt ((0 - 0) ^ 2 + (0 - 0) ^ 2 + (10 - 0) ^ 2)) with 10
    by (replace ((0 - 0) ^ 2 + (0 - 0) ^ 2 + (10 - 0) ^ 2) with (10 * 10) by ring; rewrite sqrt_square; lra).
  unfold atan2. destruct (Rlt_dec 0 (0 - 0)); [lra|].
  match goal with |- ~ (Rabs (cos ?o * _ + _) <= _ /\ _) => set (o0 := o) end.
  assert (O : o0 = 0).
  { unfold o0. repeat (match goal with |- context [if ?d then _ else _] => destruct d; try lra end). }
  rewrite O, cos_0, sin_0. intros (H & _).
  match type of H with Rabs ?e <= _ => replace e with (19 / 2) in H by field end.
  rewrite Rabs_pos_eq in H; lra. Qed.
Print Assumptions C44_parts_refuted.

(* the rooms of an arc, split or not and in both directions, cover exactly the band of the tolerance around
   the arc, lengthened at both ends by the angle of the tolerance *)
Theorem C74_region : forall sc d tol r rs re a al c x,
  0 < r -> 0 <= tol -> 0 < rs -> 0 < re -> 0 <= al -> al + 2 * atan (tol / r) < 2 * PI ->
  ((exists g, In g (ring_rooms sc d tol r (rs * cos a, rs * sin a) (re * cos (sweep d a al), re * sin (sweep d a al))) /\
     in_ring g c x) <->
   exists rho u, r - tol <= rho <= r + tol /\ - atan (tol / r) <= u <= al + atan (tol / r) /\
     x = polar c rho (sweep d a u)).
Proof. exact ring_rooms_region. Qed.
Example C74_region_ex : 0 <= PI / 2 /\ PI / 2 + 2 * atan (0 / 1) < 2 * PI.
Proof. pose proof PI_RGT_0. replace (0 / 1) with 0 by field. rewrite atan_0. lra. Qed.
Print Assumptions C74_region.

(* with varying tolerance the three parts cover the three pieces of the arc, each with its own tolerance *)
Theorem C74_parts : forall d tol tols r sp rs a al bs be,
  0 < r -> 0 <= tol -> 0 <= tols -> 0 < rs -> 0 <= sp <= 1 / 2 -> 0 <= al < 2 * PI ->
  sp * al + 2 * atan (tol / r) < 2 * PI -> (1 - 2 * sp) * al + 2 * atan (tols / r) < 2 * PI ->
  let p u := (rs * cos (sweep d a u), rs * sin (sweep d a u)) in
  exists g1 g2 g3,
    arc_parts d tol tols r sp bs be (p 0) (p al) =
      [(g1, bs, p (sp * al)); (g2, p (sp * al), p ((1 - sp) * al)); (g3, p ((1 - sp) * al), be)] /\
    (forall c x, in_ring g1 c x <-> exists rho u, r - tol <= rho <= r + tol /\
       - atan (tol / r) <= u <= sp * al + atan (tol / r) /\ x = polar c rho (sweep d a u)) /\
    (forall c x, in_ring g2 c x <-> exists rho u, r - tols <= rho <= r + tols /\
       sp * al - atan (tols / r) <= u <= (1 - sp) * al + atan (tols / r) /\ x = polar c rho (sweep d a u)) /\
    (forall c x, in_ring g3 c x <-> exists rho u, r - tol <= rho <= r + tol /\
       (1 - sp) * al - atan (tol / r) <= u <= al + atan (tol / r) /\ x = polar c rho (sweep d a u)).
Proof. exact arc_parts_regions. Qed.
Print Assumptions C74_parts.

(* a full circle gets a room of two tolerance angles only: the opposite point is not covered *)
Theorem C74_full_circle_refuted : exists tol r x, 0 < tol < r /\ on_circle (0, 0) r x /\ forall sc d,
  ~ exists g, In g (ring_rooms sc d tol r (r * cos 0, r * sin 0) (r * cos 0, r * sin 0)) /\ in_ring g (0, 0) x.
Proof.  exists (1 / 10), 1, (- 1, 0). split; [lra|]. split.
  { unfold on_circle, dist, Rsqr; cbn [fst snd]. replace ((- 1 - 0) * (- 1 - 0) + (0 - 0) * (0 - 0)) with (1 * 1) by ring.
    rewrite sqrt_square; lra. }
  intros sc d H. apply full_circle_room in H; [|lra|lra]. destruct H as (rho & u & U & RHO & E).
  unfold polar in E; cbn [fst snd] in E. injection E as E1 E2.
  assert (C : 0 <= cos (sweep d 0 u)) by (pose proof PI_RGT_0; apply cos_ge_0; destruct d; unfold sweep; lra).
  nra. Qed.
Print Assumptions C74_full_circle_refuted.

(* when a split arc is divided further, the parts of the second half record the start of the whole arc *)
Theorem C74_halves_refuted : exists d tol tols r sp p0 pm p1 g0 s0 e0, 0 < tol < r /\
  (* second half, from pm to p1, of a block from p0 to p1 *)
  hd_error (arc_parts d tol tols r sp p0 p1 pm p1) = Some (g0, s0, e0) /\ s0 <> pm.
Proof.  exists CCW, (1 / 10), (1 / 10), 1, (1 / 4), (1, 0), (0, 1), (- 1, 0). do 3 eexists. split; [lra|].
  split; [reflexivity|]. intros E. injection E; intros; lra. Qed.
Print Assumptions C74_halves_refuted.

(* a slanted room: the point is inside its infinitely long version, shrunk by the margin *)
Theorem C75_diagonal : forall w h th c x m, 0 < w -> 0 < h ->
  rmod th PI <> 0 -> rmod th (PI / 2) <> 0 -> 1 / 1000 <= Rabs (w - h) ->
  (in_extended_rectangle w h th c x m = true <->
   Rabs (- sin th * (fst x - fst c) + cos th * (snd x - snd c)) < h / 2 - m).
Proof. exact diagonal_test. Qed.
Print Assumptions C75_diagonal.

(* a nearly square slanted room is not extended: all four sides count *)
Theorem C75_square : forall w h th c x m, 0 < w -> 0 < h ->
  rmod th PI <> 0 -> rmod th (PI / 2) <> 0 -> Rabs (w - h) < 1 / 1000 ->
  (in_extended_rectangle w h th c x m = true <->
   Rabs (cos th * (fst x - fst c) + sin th * (snd x - snd c)) < w / 2 - m /\
   Rabs (- sin th * (fst x - fst c) + cos th * (snd x - snd c)) < h / 2 - m).
Proof. exact square_test. Qed.
Print Assumptions C75_square.

(* horizontal and vertical rooms: the margin is ignored *)
Theorem C75_axis : forall w h th c x m, 0 < w -> 0 < h -> rmod th PI = 0 \/ rmod th (PI / 2) = 0 ->
  (in_extended_rectangle w h th c x m = true <->
   Rabs (- sin th * (fst x - fst c) + cos th * (snd x - snd c)) < h / 2).
Proof.  intros w h th c x m W H A. exact (axis_test w h th c x m H A). Qed.
Example C75_axis_ex : rmod 0 PI = 0.
Proof. replace 0 with (PI * IZR 0) at 1 by ring. apply rmod_multiple, PI_RGT_0. Qed.
Print Assumptions C75_axis.

(* so the same point is accepted or rejected depending on the direction of the move *)
Theorem C75_margin_refuted : exists w h c x m, 0 < w /\ 0 < h /\ in_extended_rectangle w h 0 c x m = true /\
  ~ Rabs (- sin 0 * (fst x - fst c) + cos 0 * (snd x - snd c)) < h / 2 - m.
Proof.  exists 10, 2, (0, 0), (3, 1 / 2), 1. split; [lra|]. split; [lra|]. rewrite sin_0, cos_0; cbn [fst snd]. split.
  - apply axis_test; [lra| |].
    + left. replace 0 with (PI * IZR 0) at 1 by ring. apply rmod_multiple, PI_RGT_0.
    + unfold across. rewrite sin_0, cos_0; cbn [fst snd]. apply Rabs_def1; lra.
  - intros H. apply Rabs_def2 in H. lra. Qed.
Print Assumptions C75_margin_refuted.

(* arcs: the point is inside the complete ring, shrunk by the margin *)
Theorem C75_ring : forall ri ro c x m, in_extended_ring ri ro c x m = true <-> ri + m <= dist x c <= ro - m.
Proof. exact ring_test. Qed.
Print Assumptions C75_ring.

(* the eight phases bring the tool over exactly the distance, from rest to rest, within the limits on
   velocity, acceleration and jerk, and the motion time is their total duration *)
Theorem C76_profile : forall j a v d, 0 < j -> 0 < a -> 0 < v -> 0 < d ->
  let '(T1, T2, T4) := phases j a v d in
  profile (eight j T1 T2 T4) (0, 0, 0) = (d, 0, 0) /\ within v a (eight j T1 T2 T4) (0, 0, 0) /\
  motion_time j a v d = fold_right Rplus 0 (map snd (eight j T1 T2 T4)).
Proof. exact motion_profile. Qed.
Example C76_profile_ex : 0 < 20 /\ 0 < 10 /\ 0 < 5 /\ 0 < 3.
Proof. lra. Qed.
Print Assumptions C76_profile.

(* but the distance used for straight moves is the squared length *)
Theorem C76_distance_refuted : exists s e, dist_xyz s e = 10 /\ line_distance s e = 100.
Proof.  exists (0, 0, 0), (10, 0, 0). unfold dist_xyz, line_distance, x3, y3, z3; cbn [fst snd]. split; [|ring].
  replace ((10 - 0) ^ 2 + (0 - 0) ^ 2 + (0 - 0) ^ 2) with (10 * 10) by ring. apply sqrt_square. lra. Qed.
Print Assumptions C76_distance_refuted.
