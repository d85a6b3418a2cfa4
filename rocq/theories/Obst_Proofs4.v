(** Rotating obstacles, continued: angle of the splines against the physical angle. *)
From Coq Require Import Reals List Arith Lia Lra ZArith.
From Verif Require Import Spline_Model Spline_Proofs Obst_Model Obst_Spec Obst_Proofs Obst_Proofs3.
Import ListNotations.
Local Open Scope R_scope.

Lemma ceil_spec : forall x, 0 < x -> (1 <= ceilR x)%nat /\ INR (ceilR x) - 1 < x <= INR (ceilR x).
Proof.
  intros x Hx. unfold ceilR. destruct (base_Int_part (- x)) as [H1 H2].
  set (z := Int_part (- x)) in *.
  assert (Hz : (1 <= - z)%Z). { apply le_IZR. rewrite opp_IZR. assert (IZR z < 0) by lra.
    apply lt_IZR in H. assert (z <= -1)%Z by lia. apply IZR_le in H0. lra. }
  rewrite INR_IZR_INZ, Z2Nat.id by lia. rewrite opp_IZR. split; [lia|lra].
Qed.

Lemma turn_pos : forall omega, omega <> 0 -> 0 < turn_time omega.
Proof.
  intros. unfold turn_time. pose proof PI_RGT_0. pose proof (Rabs_pos_lt omega H).
  apply Rmult_lt_0_compat; [lra|now apply Rinv_0_lt_compat].
Qed.

Lemma sgn_abs : forall x, sgn x * Rabs x = x.
Proof.
  intros x. unfold sgn. destruct (Rltb 0 x) eqn:E.
  - apply Rltb_true in E. rewrite Rabs_right by lra. ring.
  - apply Rltb_false in E. destruct (Rltb x 0) eqn:F.
    + apply Rltb_true in F. rewrite Rabs_left by lra. ring.
    + apply Rltb_false in F. replace x with 0 by lra. ring.
Qed.
Lemma sgn_cases : forall x, x <> 0 -> sgn x = 1 \/ sgn x = -1.
Proof.
  intros x Hx. unfold sgn. destruct (Rltb 0 x) eqn:E; [now left|].
  apply Rltb_false in E. destruct (Rltb x 0) eqn:F; [now right|]. apply Rltb_false in F. lra.
Qed.

(* the quarter of a point of the horizon *)
Lemma quarter_of : forall omega T tau, omega <> 0 -> 0 < T -> 0 <= tau <= 1 ->
  let n := n_quarters omega T in let c := turn_time omega / T in
  0 < c /\ 1 <= 1/4 * INR n * c /\
  exists k, (k < n)%nat /\ (1/4 * INR k * c < tau <= 1/4 * INR (S k) * c \/ (tau = 0 /\ k = 0%nat)) /\
    0 <= 4 * tau / c - INR k <= 1.
Proof.
  intros omega T tau Ho HT Ht n c. pose proof (turn_pos omega Ho) as HTs.
  assert (Hc : 0 < c) by (apply Rmult_lt_0_compat; [assumption|now apply Rinv_0_lt_compat]).
  split; [exact Hc|].
  assert (E : 4 * T / turn_time omega = 4 / c) by (unfold c; field; split; lra).
  assert (Hq : 0 < 4 / c) by (apply Rmult_lt_0_compat; [lra|now apply Rinv_0_lt_compat]).
  destruct (ceil_spec (4 / c) Hq) as (Hn1 & Hn2 & Hn3).
  assert (En : n = ceilR (4 / c)) by (unfold n, n_quarters; now rewrite E). rewrite <- En in *.
  assert (G : 1 <= 1/4 * INR n * c).
  { apply (Rmult_le_compat_r (c / 4)) in Hn3; [|lra]. replace (4 / c * (c / 4)) with 1 in Hn3 by (field; lra). lra. }
  split; [exact G|].
  destruct (Req_dec tau 0) as [->|Hne].
  - exists 0%nat. split; [lia|]. split; [right; auto|]. cbn [INR]. replace (4 * 0 / c - 0) with 0 by (field; lra). lra.
  - assert (Hx : 0 < 4 * tau / c) by (apply Rmult_lt_0_compat; [lra|now apply Rinv_0_lt_compat]).
    destruct (ceil_spec _ Hx) as (Hm1 & Hm2 & Hm3). set (m := ceilR (4 * tau / c)) in *.
    assert (Hx4 : 4 * tau / c <= 4 / c).
    { unfold Rdiv. apply Rmult_le_compat_r; [left; now apply Rinv_0_lt_compat|lra]. }
    assert (Hmn : (m <= n)%nat).
    { destruct (Nat.le_gt_cases m n) as [|X]; [assumption|]. exfalso.
      assert (S n <= m)%nat by lia. apply le_INR in H. rewrite S_INR in H. lra. }
    exists (m - 1)%nat. split; [lia|].
    assert (Em : INR (m - 1) = INR m - 1) by (rewrite minus_INR by lia; reflexivity).
    assert (ES : INR (S (m - 1)) = INR m) by (rewrite S_INR, Em; ring).
    rewrite Em, ES. split; [left|lra].
    assert (Et : tau = 1/4 * (4 * tau / c) * c) by (field; lra).
    rewrite Et. split.
    + apply Rmult_lt_compat_r; lra.
    + apply Rmult_le_compat_r; lra.
Qed.

Lemma rot_angle : forall theta omega t T tau, omega <> 0 -> 0 < T -> 0 <= tau <= 1 ->
  exists c s w phi, rotation theta omega t T tau = (c, s, w) /\ 0 < w /\
    c = w * cos phi /\ s = w * sin phi /\
    Rabs (phi - (theta + omega * (tau * T - t))) <= PI / 4 /\
    (forall j : nat, tau * T = INR j * (turn_time omega / 8) -> phi = theta + omega * (tau * T - t)).
Proof.
  intros theta omega t T tau Ho HT Ht. pose proof PI_RGT_0 as HPI.
  destruct (quarter_of omega T tau Ho HT Ht) as (Hc & Hn & k & Hk & Hx & Hu).
  set (n := n_quarters omega T) in *. set (c := turn_time omega / T) in *.
  set (u := 4 * tau / c - INR k) in *.
  destruct (quarter_cfs k u) as [HQ HW].
  destruct (base_angle u Hu) as (a & Ac & As & Ab & Al & Ah & A0 & A1 & A2).
  pose proof (qw_pos u Hu) as Hw.
  assert (Cc : call (circle_spline cos_cfs n c) tau = qw u * cos (a + INR k * (PI/2)) /\
               call (circle_spline sin_cfs n c) tau = qw u * sin (a + INR k * (PI/2))).
  { rewrite !(circle_call _ n c tau k) by assumption. fold u.
    rewrite Ac, As, qturn_angle in HQ. split; [exact (f_equal fst HQ)|exact (f_equal snd HQ)]. }
  destruct Cc as [Cc Cs].
  assert (Cw : call (circle_spline weight_cfs n c) tau = qw u).
  { rewrite (circle_call _ n c tau k) by assumption. fold u. exact HW. }
  set (b := a + INR k * (PI/2)) in *. set (th := theta - t * omega).
  assert (Hb : omega * (tau * T) = sgn omega * ((u + INR k) * (PI/2))).
  { rewrite <- (sgn_abs omega) at 1. unfold u, c, turn_time.
    pose proof (Rabs_pos_lt omega Ho). field. repeat split; lra. }
  exists (qw u * cos (th + sgn omega * b)), (qw u * sin (th + sgn omega * b)), (qw u), (th + sgn omega * b).
  split.
  { unfold rotation. destruct (Reqb omega 0) eqn:E; [apply Reqb_true in E; contradiction|].
    unfold rot_splines. fold n c. rewrite Cc, Cs, Cw. fold th. rewrite cos_plus, sin_plus.
    destruct (sgn_cases omega Ho) as [-> | ->].
    - rewrite !Rmult_1_l. repeat (f_equal; try ring).
    - replace (-1 * b) with (- b) by ring. rewrite cos_neg, sin_neg. repeat (f_equal; try ring). }
  split; [exact Hw|]. split; [reflexivity|]. split; [reflexivity|].
  assert (D : th + sgn omega * b - (theta + omega * (tau * T - t)) = sgn omega * (a - u * (PI/2))).
  { replace (theta + omega * (tau * T - t)) with (theta - t * omega + omega * (tau * T)) by ring.
    rewrite Hb. unfold th, b. ring. }
  split.
  - rewrite D. assert (Ha : Rabs (a - u * (PI/2)) <= PI/4).
    { destruct (Rle_lt_dec u (1/2)) as [H|H].
      - specialize (Al H). assert (0 <= u * (PI/2)) by (apply Rmult_le_pos; lra).
        assert (u * (PI/2) <= 1/2 * (PI/2)) by (apply Rmult_le_compat_r; lra). apply Rabs_le. lra.
      - specialize (Ah (Rlt_le _ _ H)). assert (u * (PI/2) <= 1 * (PI/2)) by (apply Rmult_le_compat_r; lra).
        assert (1/2 * (PI/2) <= u * (PI/2)) by (apply Rmult_le_compat_r; lra). apply Rabs_le. lra. }
    destruct (sgn_cases omega Ho) as [-> | ->].
    + now rewrite Rmult_1_l.
    + replace (-1 * (a - u * (PI/2))) with (- (a - u * (PI/2))) by ring. now rewrite Rabs_Ropp.
  - intros j Hj.
    assert (Uj : 2 * u = INR j - 2 * INR k).
    { unfold u. assert (E2 : 4 * tau / c = INR j / 2).
      { pose proof (turn_pos omega Ho). assert (Et : tau = INR j * (turn_time omega / 8) / T) by (rewrite <- Hj; field; lra).
        rewrite Et. unfold c. field. split; lra. }
      rewrite E2. field. }
    assert (Hcase : u = 0 \/ u = 1/2 \/ u = 1).
    { assert (Z : exists z : Z, 2 * u = IZR z).
      { exists (Z.of_nat j - 2 * Z.of_nat k)%Z. rewrite minus_IZR, mult_IZR, <- !INR_IZR_INZ. exact Uj. }
      destruct Z as [z Hz]. assert (0 <= z)%Z by (apply le_IZR; lra). assert (z <= 2)%Z by (apply le_IZR; lra).
      assert (Hz3 : (z = 0 \/ z = 1 \/ z = 2)%Z) by lia. destruct Hz3 as [-> | [-> | ->]]; lra. }
    assert (Ea : a = u * (PI/2)).
    { destruct Hcase as [H|[H|H]]; rewrite H; [rewrite (A0 H)|rewrite (A2 H)|rewrite (A1 H)]; field. }
    rewrite Ea in D. replace (sgn omega * (u * (PI/2) - u * (PI/2))) with 0 in D by ring. lra.
Qed.

(* what the collision constraint does with these splines: the corner
   (divided by the weight) is the obstacle position plus the turned corner *)
Lemma rot_corner : forall theta omega t T tau px py cx cy, omega <> 0 -> 0 < T -> 0 <= tau <= 1 ->
  exists phi, Rabs (phi - (theta + omega * (tau * T - t))) <= PI / 4 /\
  let '(c, s, w) := rotation theta omega t T tau in
  0 < w /\ ((px * w + cx * c - cy * s) / w, (py * w + cx * s + cy * c) / w)
           = (px + fst (turned phi (cx, cy)), py + snd (turned phi (cx, cy))).
Proof.
  intros theta omega t T tau px py cx cy Ho HT Ht.
  destruct (rot_angle theta omega t T tau Ho HT Ht) as (c & s & w & phi & E & Hw & Hc & Hs & Hd & _).
  exists phi. split; [exact Hd|]. rewrite E. split; [exact Hw|]. subst c s. unfold turned; cbn [fst snd].
  f_equal; field; lra.
Qed.

(* the corners stay at their distance from the centre *)
Lemma rot_rigid : forall theta omega t T tau, 0 < T -> 0 <= tau <= 1 ->
  let '(c, s, w) := rotation theta omega t T tau in 0 < w /\ c ^ 2 + s ^ 2 = w ^ 2.
Proof.
  intros theta omega t T tau HT Ht. destruct (Req_dec omega 0) as [->|Ho].
  - unfold rotation. rewrite (proj2 (Reqb_true 0 0)) by reflexivity. split; [lra|].
    pose proof (sin2_cos2 theta). unfold Rsqr in *. lra.
  - destruct (rot_angle theta omega t T tau Ho HT Ht) as (c & s & w & phi & E & Hw & Hc & Hs & _).
    rewrite E. split; [exact Hw|]. subst c s. pose proof (sin2_cos2 phi) as H. unfold Rsqr in H.
    replace ((w * cos phi)^2 + (w * sin phi)^2) with (w^2 * (sin phi * sin phi + cos phi * cos phi)) by ring.
    rewrite H. ring.
Qed.

(* start of the horizon, measured there: exact *)
Lemma rot_start : forall theta omega T, omega <> 0 -> 0 < T ->
  exists w, 0 < w /\ rotation theta omega 0 T 0 = (w * cos theta, w * sin theta, w).
Proof.
  intros theta omega T Ho HT.
  destruct (rot_angle theta omega 0 T 0 Ho HT ltac:(lra)) as (c & s & w & phi & E & Hw & Hc & Hs & _ & Hj).
  exists w. split; [exact Hw|]. rewrite E. rewrite (Hj 0%nat) in Hc, Hs by (simpl; ring).
  replace (theta + omega * (0 * T - 0)) with theta in Hc, Hs by ring. subst. reflexivity.
Qed.

(* measured later than the start of the horizon: the measured angle is not
   reproduced at the moment of the measurement *)
Lemma rot_measured_refuted : exists theta omega t T, omega <> 0 /\ 0 < t < T /\
  let '(c, s, w) := rotation theta omega t T (t / T) in
  ~ (c = w * cos theta /\ s = w * sin theta).
Proof.
  exists 0, (PI/2), (1/3), 1. pose proof PI_RGT_0 as HPI.
  assert (Ho : PI/2 <> 0) by lra. split; [exact Ho|]. split; [lra|].
  replace (1/3/1) with (1/3) by field.
  assert (HTs : turn_time (PI/2) = 4).
  { unfold turn_time. rewrite Rabs_right by lra. field. lra. }
  assert (Hn : n_quarters (PI/2) 1 = 1%nat).
  { unfold n_quarters. rewrite HTs. replace (4 * 1 / 4) with 1 by field.
    destruct (ceil_spec 1 ltac:(lra)) as (H1 & H2 & H3). apply Nat.le_antisymm; [|assumption].
    destruct (Nat.le_gt_cases (ceilR 1) 1) as [|X]; [assumption|]. exfalso.
    assert (2 <= ceilR 1)%nat by lia. apply le_INR in H. simpl in H. lra. }
  unfold rotation. destruct (Reqb (PI/2) 0) eqn:E; [apply Reqb_true in E; contradiction|].
  unfold rot_splines. rewrite Hn, HTs. replace (4/1) with 4 by field.
  assert (Q : forall l, call (circle_spline l 1 4) (1/3)
    = bern (1/3) (nth 0 l 0) (nth 1 l 0) (nth 2 l 0)).
  { intros l. rewrite (circle_call l 1 4 (1/3) 0); [|lra|lia|simpl; lra|lra|left; simpl; lra].
    change (2 * 0 mod 8)%nat with 0%nat. change ((2 * 0 + 1) mod 8)%nat with 1%nat. change ((2 * 0 + 2) mod 8)%nat with 2%nat.
    f_equal. simpl. field. }
  rewrite !Q. unfold cos_cfs, sin_cfs, weight_cfs; cbn [nth].
  assert (Hsg : sgn (PI/2) = 1). { destruct (sgn_cases (PI/2) Ho) as [|H]; [assumption|].
    pose proof (sgn_abs (PI/2)). rewrite H, Rabs_right in * by lra. lra. }
  rewrite Hsg. replace (0 - 1/3 * (PI/2)) with (- (PI/6)) by field.
  rewrite cos_neg, sin_neg, cos_PI6, sin_PI6, sin_0, Rmult_0_r. intros [_ H].
  unfold bern in H. pose proof r22_sq as Hr. pose proof r22_pos as Hp.
  pose proof (sqrt_sqrt 3 ltac:(lra)) as H3. pose proof (sqrt_lt_R0 3 ltac:(lra)) as H3p.
  assert (E1 : sqrt 3 * (1 + 4 * r22) = 4 + 4 * r22) by lra.
  assert (E2 : (sqrt 3 * sqrt 3) * ((1 + 4 * r22) * (1 + 4 * r22)) = (4 + 4 * r22) * (4 + 4 * r22)).
  { rewrite <- E1. ring. }
  rewrite H3 in E2. assert (r22 = 3/8).
  { replace (3 * ((1 + 4 * r22) * (1 + 4 * r22))) with (3 + 24 * r22 + 48 * (r22 * r22)) in E2 by ring.
    replace ((4 + 4 * r22) * (4 + 4 * r22)) with (16 + 32 * r22 + 16 * (r22 * r22)) in E2 by ring.
    rewrite Hr in E2. lra. }
  rewrite H0 in Hr. lra.
Qed.
