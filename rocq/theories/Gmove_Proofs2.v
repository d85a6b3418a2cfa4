(* Proofs about the ring shaped rooms around arcs. *)
Require Import Reals List Lra Lia Bool Arith.
From Verif Require Import Angle_Model Angle_Proofs Geom_Model Geom_Spec Geom_Proofs Geom_Proofs2 Geom_Proofs3
  Gmove_Model Gmove_Spec Gmove_Proofs.
Import ListNotations.
Open Scope R_scope.

Lemma polar_turns : forall c rho a b, turns a b -> polar c rho a = polar c rho b.
Proof. intros c rho a b T. destruct (turns_cos _ _ T) as (C & S). unfold polar. rewrite C, S. reflexivity. Qed.

Lemma rotate_polar : forall th r a, rotate th (r * cos a, r * sin a) = (r * cos (a + th), r * sin (a + th)).
Proof. intros. unfold rotate; cbn [fst snd]. rewrite cos_plus, sin_plus. f_equal; ring. Qed.
Lemma rot_dir_polar : forall d u r a,
  rot_dir d u (r * cos a, r * sin a) = (r * cos (sweep d a u), r * sin (sweep d a u)).
Proof. intros [|] u r a; unfold rot_dir, sweep; rewrite rotate_polar; reflexivity. Qed.

Lemma turns_minus : forall a b c d, turns a b -> turns c d -> turns (a - c) (b - d).
Proof. intros. unfold Rminus. apply turns_plus; [assumption|apply turns_opp; assumption]. Qed.
Lemma turns_of_eq : forall a b, a = b -> turns a b.
Proof. intros a b ->. apply turns_refl. Qed.

(* the arc from polar angle a, over L, in direction d *)
Lemma arc_of_span : forall d rs re a L, 0 < rs -> 0 < re -> 0 <= L < 2 * PI ->
  arc_of d (rs * cos a, rs * sin a) (re * cos (sweep d a L), re * sin (sweep d a L)) = L.
Proof.
  intros d rs re a L RS RE HL. unfold arc_of; cbn [fst snd].
  pose proof (atan2_of_polar rs a RS) as TA. pose proof (atan2_of_polar re (sweep d a L) RE) as TB.
  pose proof (atan2_range (rs * sin a) (rs * cos a)) as RA.
  pose proof (atan2_range (re * sin (sweep d a L)) (re * cos (sweep d a L))) as RB.
  set (p := atan2 (rs * sin a) (rs * cos a)) in *. set (q := atan2 (re * sin (sweep d a L)) _) in *.
  destruct d; unfold sweep in *.
  - apply turns_eq; [|apply cw_arc_range; assumption|assumption].
    eapply turns_trans; [apply cw_arc_turns|]. eapply turns_trans; [apply turns_minus; eassumption|].
    apply turns_of_eq; ring.
  - apply turns_eq; [|apply ccw_arc_range; assumption|assumption].
    eapply turns_trans; [apply ccw_arc_turns|]. eapply turns_trans; [apply turns_minus; eassumption|].
    apply turns_of_eq; ring.
Qed.

Lemma ring_region : forall d ri ro rs re a L c x, 0 < rs -> 0 < re -> 0 <= L < 2 * PI ->
  (in_ring (make_ring ri ro (rs * cos a, rs * sin a) (re * cos (sweep d a L), re * sin (sweep d a L)) d) c x <->
   exists rho u, ri <= rho <= ro /\ 0 <= u <= L /\ x = polar c rho (sweep d a u)).
Proof.
  intros d ri ro rs re a L c x RS RE HL.
  pose proof (arc_of_span d rs re a L RS RE HL) as SP. unfold arc_of in SP; cbn [fst snd] in SP.
  unfold make_ring; cbn [fst snd].
  pose proof (atan2_of_polar rs a RS) as TA.
  set (p := atan2 (rs * sin a) (rs * cos a)) in *. set (q := atan2 (re * sin (sweep d a L)) _) in *.
  destruct d; cbn [sweep] in *; unfold in_ring; cbn [rin rout a_start a_end].
  - assert (TS : turns (cw_start p q) a) by (eapply turns_trans; [apply cw_start_turns|exact TA]).
    unfold cw_arc in SP. split.
    + intros (rho & phi & HR & HP & ->). exists rho, (cw_start p q - phi). split; [exact HR|]. split; [lra|].
      apply polar_turns. eapply turns_trans; [|apply turns_minus; [exact TS|apply turns_refl]]. apply turns_of_eq; ring.
    + intros (rho & u & HR & HU & ->). exists rho, (cw_start p q - u). split; [exact HR|]. split; [lra|].
      apply polar_turns. apply turns_minus; [apply turns_sym; exact TS|apply turns_refl].
  - unfold ccw_arc in SP. split.
    + intros (rho & phi & HR & HP & ->). exists rho, (phi - p). split; [exact HR|]. split; [lra|].
      apply polar_turns. eapply turns_trans; [|apply turns_plus; [exact TA|apply turns_refl]]. apply turns_of_eq; ring.
    + intros (rho & u & HR & HU & ->). exists rho, (p + u). split; [exact HR|]. split; [lra|].
      apply polar_turns. apply turns_plus; [apply turns_sym; exact TA|apply turns_refl].
Qed.

Lemma tol_angle_eq : forall tol r, 0 < r -> tol_angle tol r = atan (tol / r).
Proof.
  intros tol r H. unfold tol_angle, atan2. replace ((r - tol + (r + tol)) * (1 / 2)) with r by field.
  destruct (Rlt_dec 0 r); [reflexivity|lra].
Qed.
Lemma small_angle_eq : forall tols tol r, 0 < r -> atan2 tols ((r - tol + (r + tol)) * (1 / 2)) = atan (tols / r).
Proof.
  intros tols tol r H. unfold atan2. replace ((r - tol + (r + tol)) * (1 / 2)) with r by field.
  destruct (Rlt_dec 0 r); [reflexivity|lra].
Qed.
Lemma atan_ratio_range : forall t r, 0 < r -> 0 <= t -> 0 <= atan (t / r) < PI / 2.
Proof.
  intros t r R T. split.
  - rewrite <- atan_0. destruct (Req_dec t 0) as [->|N].
    + unfold Rdiv. rewrite Rmult_0_l. lra.
    + left. apply atan_increasing. apply Rmult_lt_0_compat; [lra|apply Rinv_0_lt_compat; exact R].
  - apply atan_bound.
Qed.

Lemma sweep_plus : forall d a u v, sweep d (sweep d a u) v = sweep d a (u + v).
Proof. intros [|] a u v; unfold sweep; ring. Qed.

Lemma widened_polar : forall d tol r rs a re b,
  widened_start d tol r (rs * cos a, rs * sin a) =
    (rs * cos (sweep d a (- tol_angle tol r)), rs * sin (sweep d a (- tol_angle tol r))) /\
  widened_end d tol r (re * cos b, re * sin b) =
    (re * cos (sweep d b (tol_angle tol r)), re * sin (sweep d b (tol_angle tol r))).
Proof.
  intros [|] tol r rs a re b; unfold widened_start, widened_end, sweep; rewrite !rotate_polar; split; f_equal;
    f_equal; f_equal; ring.
Qed.

(* the rooms of an arc cover exactly the band of width 2 tol around the arc,
   lengthened by the tolerance angle on both sides *)
Lemma ring_rooms_region : forall sc d tol r rs re a al c x,
  0 < r -> 0 <= tol -> 0 < rs -> 0 < re -> 0 <= al -> al + 2 * atan (tol / r) < 2 * PI ->
  ((exists g, In g (ring_rooms sc d tol r (rs * cos a, rs * sin a) (re * cos (sweep d a al), re * sin (sweep d a al))) /\
     in_ring g c x) <->
   exists rho u, r - tol <= rho <= r + tol /\ - atan (tol / r) <= u <= al + atan (tol / r) /\
     x = polar c rho (sweep d a u)).
Proof.
  intros sc d tol r rs re a al c x R T RS RE AL LIM.
  pose proof (atan_ratio_range tol r R T) as TH.
  unfold ring_rooms. destruct (widened_polar d tol r rs a re (sweep d a al)) as (-> & ->).
  rewrite tol_angle_eq by exact R. set (th := atan (tol / r)) in *. rewrite sweep_plus.
  set (a' := sweep d a (- th)).
  replace (sweep d a (al + th)) with (sweep d a' (al + 2 * th)) by (unfold a'; rewrite sweep_plus; f_equal; ring).
  rewrite arc_of_span by (try assumption; lra).
  assert (SHIFT : forall u, sweep d a' u = sweep d a (u - th)) by (intros u; unfold a'; rewrite sweep_plus; f_equal; ring).
  set (L := al + 2 * th) in *.
  assert (FULL : (exists rho u, r - tol <= rho <= r + tol /\ 0 <= u <= L /\ x = polar c rho (sweep d a' u)) <->
                 (exists rho u, r - tol <= rho <= r + tol /\ - th <= u <= al + th /\ x = polar c rho (sweep d a u))).
  { split.
    - intros (rho & u & HR & HU & ->). exists rho, (u - th). split; [exact HR|]. unfold L in HU. split; [lra|].
      rewrite SHIFT. reflexivity.
    - intros (rho & u & HR & HU & ->). exists rho, (u + th). split; [exact HR|]. unfold L. split; [lra|].
      rewrite SHIFT. do 2 f_equal. ring. }
  rewrite <- FULL.
  destruct (sc && Rltb (3 * PI / 4) L)%bool.
  - assert (SPLIT : exists g1 g2,
       (match d with
        | CW => [make_ring (r - tol) (r + tol) (rs * cos a', rs * sin a') (rotate (- (L * (1 / 2)) - th) (rs * cos a', rs * sin a')) d;
                 make_ring (r - tol) (r + tol) (rotate (- (L * (1 / 2)) + th) (rs * cos a', rs * sin a')) (re * cos (sweep d a' L), re * sin (sweep d a' L)) d]
        | CCW => [make_ring (r - tol) (r + tol) (rs * cos a', rs * sin a') (rotate (L * (1 / 2) + th) (rs * cos a', rs * sin a')) d;
                 make_ring (r - tol) (r + tol) (rotate (L * (1 / 2) - th) (rs * cos a', rs * sin a')) (re * cos (sweep d a' L), re * sin (sweep d a' L)) d]
        end) = [g1; g2] /\
       g1 = make_ring (r - tol) (r + tol) (rs * cos a', rs * sin a')
              (rs * cos (sweep d a' (L / 2 + th)), rs * sin (sweep d a' (L / 2 + th))) d /\
       g2 = make_ring (r - tol) (r + tol)
              (rs * cos (sweep d a' (L / 2 - th)), rs * sin (sweep d a' (L / 2 - th)))
              (re * cos (sweep d (sweep d a' (L / 2 - th)) (L / 2 + th)), re * sin (sweep d (sweep d a' (L / 2 - th)) (L / 2 + th))) d).
    { rewrite sweep_plus. replace (L / 2 - th + (L / 2 + th)) with L by field. clearbody a' L.
      destruct d; do 2 eexists; (split; [reflexivity|]); rewrite !rotate_polar; unfold sweep; split.
      - replace (a' - (L / 2 + th)) with (a' + (- (L * (1 / 2)) - th)) by field. reflexivity.
      - replace (a' - (L / 2 - th)) with (a' + (- (L * (1 / 2)) + th)) by field. reflexivity.
      - replace (a' + (L / 2 + th)) with (a' + (L * (1 / 2) + th)) by field. reflexivity.
      - replace (a' + (L / 2 - th)) with (a' + (L * (1 / 2) - th)) by field. reflexivity. }
    destruct SPLIT as (g1 & g2 & -> & G1 & G2).
    assert (B : 0 <= L / 2 + th < 2 * PI) by (pose proof PI_RGT_0; unfold L in *; lra).
    pose proof (ring_region d (r - tol) (r + tol) rs rs a' (L / 2 + th) c x RS RS B) as I1. rewrite <- G1 in I1.
    pose proof (ring_region d (r - tol) (r + tol) rs re (sweep d a' (L / 2 - th)) (L / 2 + th) c x RS RE B) as I2. rewrite <- G2 in I2.
    split.
    + intros (g & [<- | [<- | []]] & H).
      * apply I1 in H. destruct H as (rho & u & HR & HU & ->). exists rho, u. split; [exact HR|]. split; [unfold L in *; lra|reflexivity].
      * apply I2 in H. destruct H as (rho & u & HR & HU & ->). exists rho, (L / 2 - th + u). split; [exact HR|].
        split; [unfold L in *; lra|]. rewrite sweep_plus. reflexivity.
    + intros (rho & u & HR & HU & ->). destruct (Rle_dec u (L / 2 + th)).
      * exists g1. split; [left; reflexivity|]. apply I1. exists rho, u. split; [exact HR|]. split; [lra|reflexivity].
      * exists g2. split; [right; left; reflexivity|]. apply I2. exists rho, (u - (L / 2 - th)). split; [exact HR|].
        split; [lra|]. rewrite sweep_plus. do 2 f_equal. ring.
  - pose proof (ring_region d (r - tol) (r + tol) rs re a' L c x RS RE) as I.
    split.
    + intros (g & [<- | []] & H). apply I in H; [exact H|unfold L in *; lra].
    + intros H. eexists. split; [left; reflexivity|]. apply I; [unfold L in *; lra|exact H].
Qed.


(* a closed circle is reduced to a sliver *)
Lemma full_circle_room : forall sc d tol r a c x, 0 < r -> 0 <= tol <= r ->
  (exists g, In g (ring_rooms sc d tol r (r * cos a, r * sin a) (r * cos a, r * sin a)) /\ in_ring g c x) ->
  exists rho u, - (PI / 4) <= u <= PI / 4 /\ r - tol <= rho <= r + tol /\ x = polar c rho (sweep d a u).
Proof.
  intros sc d tol r a c x R T H.
  assert (TH : 0 <= atan (tol / r) <= PI / 4).
  { split; [apply atan_ratio_range; lra|]. rewrite <- atan_1. destruct (Req_dec tol r) as [->|N].
    - unfold Rdiv. rewrite Rinv_r by lra. lra.
    - left. apply atan_increasing. apply (Rmult_lt_reg_r r); [lra|]. unfold Rdiv. rewrite Rmult_assoc, Rinv_l; lra. }
  pose proof (proj1 (ring_rooms_region sc d tol r r r a 0 c x R (proj1 T) R R (Rle_refl 0) ltac:(pose proof PI_RGT_0; lra))) as P.
  replace (sweep d a 0) with a in P by (destruct d; unfold sweep; ring).
  destruct (P H) as (rho & u & HR & HU & ->). exists rho, u. split; [lra|]. split; [exact HR|reflexivity].
Qed.

(* the three parts of an arc under variable tolerance *)
Lemma arc_parts_regions : forall d tol tols r sp rs a al bs be,
  0 < r -> 0 <= tol -> 0 <= tols -> 0 < rs -> 0 <= sp <= 1 / 2 -> 0 <= al < 2 * PI ->
  sp * al + 2 * atan (tol / r) < 2 * PI -> (1 - 2 * sp) * al + 2 * atan (tols / r) < 2 * PI ->
  let p u := (rs * cos (sweep d a u), rs * sin (sweep d a u)) in
  exists g1 g2 g3,
    arc_parts d tol tols r sp bs be (p 0) (p al) =
      [(g1, bs, p (sp * al)); (g2, p (sp * al), p ((1 - sp) * al)); (g3, p ((1 - sp) * al), be)] /\
    (forall c x, in_ring g1 c x <-> exists rho u, r - tol <= rho <= r + tol /\
       - atan (tol / r) <= u <= sp * al + atan (tol / r) /\ x = polar c rho (sweep d a u)) /\
    (forall c x, in_ring g2 c x <-> exists rho u, r - tols <= rho <= r + tols /\
       sp * al - atan (tols / r) <= u <= (1 - sp) * al + atan (tols / r) /\ x = polar c rho (sweep d a u)) /\
    (forall c x, in_ring g3 c x <-> exists rho u, r - tol <= rho <= r + tol /\
       (1 - sp) * al - atan (tol / r) <= u <= al + atan (tol / r) /\ x = polar c rho (sweep d a u)).
Proof.
  intros d tol tols r sp rs a al bs be R T TS RS SP AL L1 L2 p. unfold p.
  pose proof (atan_ratio_range tol r R T) as TH. pose proof (atan_ratio_range tols r R TS) as TH2.
  unfold arc_parts. rewrite small_angle_eq, tol_angle_eq by exact R.
  set (big := atan (tol / r)) in *. set (small := atan (tols / r)) in *.
  replace (sweep d a 0) with a by (destruct d; unfold sweep; ring).
  rewrite arc_of_span by assumption. rewrite (Rabs_pos_eq al) by lra.
  rewrite !rot_dir_polar, !sweep_plus.
  replace (sp * al + (1 - 2 * sp) * al) with ((1 - sp) * al) by ring.
  assert (S1 : 0 <= sp * al) by nra. assert (S2 : 0 <= (1 - 2 * sp) * al) by nra.
  do 3 eexists. split; [reflexivity|].
  assert (MK : forall ri ro t u0 v0, 0 <= v0 + 2 * t < 2 * PI -> forall c x,
    in_ring (make_ring ri ro (rs * cos (sweep d a (u0 + - t)), rs * sin (sweep d a (u0 + - t)))
       (rs * cos (sweep d a (u0 + (v0 + t))), rs * sin (sweep d a (u0 + (v0 + t)))) d) c x <->
    exists rho u, ri <= rho <= ro /\ u0 - t <= u <= u0 + v0 + t /\ x = polar c rho (sweep d a u)).
  { intros ri ro t u0 v0 B c x.
    pose proof (ring_region d ri ro rs rs (sweep d a (u0 + - t)) (v0 + 2 * t) c x RS RS B) as I.
    rewrite sweep_plus in I. replace (u0 + - t + (v0 + 2 * t)) with (u0 + (v0 + t)) in I by ring. rewrite I.
    split.
    - intros (rho & u & HR & HU & ->). exists rho, (u0 - t + u). split; [exact HR|]. split; [lra|].
      rewrite sweep_plus. do 2 f_equal.
    - intros (rho & u & HR & HU & ->). exists rho, (u - u0 + t). split; [exact HR|]. split; [lra|].
      rewrite sweep_plus. do 2 f_equal. ring. }
  split; [|split].
  - intros c x. pose proof (MK (r - tol) (r + tol) big 0 (sp * al) ltac:(lra) c x) as M.
    rewrite !Rplus_0_l in M. rewrite M. replace (0 - big) with (- big) by ring. reflexivity.
  - intros c x. pose proof (MK (r - tol + (tol - tols)) (r + tol - (tol - tols)) small (sp * al) ((1 - 2 * sp) * al) ltac:(lra) c x) as M.
    rewrite M. replace (r - tol + (tol - tols)) with (r - tols) by ring. replace (r + tol - (tol - tols)) with (r + tols) by ring.
    replace (sp * al + (1 - 2 * sp) * al) with ((1 - sp) * al) by ring. reflexivity.
  - intros c x. pose proof (MK (r - tol) (r + tol) big ((1 - sp) * al) (sp * al) ltac:(lra) c x) as M.
    rewrite M. replace ((1 - sp) * al + sp * al) with al by ring. reflexivity.
Qed.
