(** Rotating obstacles: the rational splines describe exact rotations. *)
From Coq Require Import Reals List Arith Lia Lra ZArith.
From Verif Require Import Spline_Model Spline_Spec Spline_Proofs Spline_Proofs5 Blossom Obst_Model Obst_Spec Obst_Proofs.
Import ListNotations.
Local Open Scope R_scope.

Lemma quarter_len : forall n c, length (quarter_knots n c) = (2 * n + 4)%nat.
Proof.
  intros. unfold quarter_knots. rewrite !app_length. cbn [length].
  assert (H : forall a m, length (flat_map (fun k => [1/4 * INR k * c; 1/4 * INR k * c]) (seq a m)) = (2 * m)%nat).
  { intros a m; revert a. induction m as [|m IH]; intros a; [reflexivity|]. cbn [seq flat_map]. rewrite app_length, IH. simpl. lia. }
  rewrite H. lia.
Qed.

Lemma flat_nth : forall c m a i, (i < 2 * m)%nat ->
  nth i (flat_map (fun k => [1/4 * INR k * c; 1/4 * INR k * c]) (seq a m)) 0 = 1/4 * INR (a + i / 2) * c.
Proof.
  intros c m. induction m as [|m IH]; intros a i Hi; [lia|].
  cbn [seq flat_map app]. destruct i as [|[|i]].
  - cbn [nth]. now rewrite Nat.add_0_r.
  - cbn [nth]. change (1 / 2)%nat with 0%nat. now rewrite Nat.add_0_r.
  - cbn [nth]. rewrite IH by lia. replace (S (S i)) with (i + 1 * 2)%nat by lia.
    rewrite Nat.div_add by lia. f_equal. f_equal. f_equal. lia.
Qed.

Lemma quarter_nth : forall n c i, (i < 2 * n + 4)%nat ->
  nth i (quarter_knots n c) 0 = 1/4 * INR (Nat.min n ((i - 1) / 2)) * c.
Proof.
  intros n c i Hi. unfold quarter_knots.
  destruct i as [|[|[|i]]]; try (cbn [app nth]; change ((0 - 1) / 2)%nat with 0%nat;
    change ((1 - 1) / 2)%nat with 0%nat; change ((2 - 1) / 2)%nat with 0%nat; rewrite Nat.min_0_r; simpl; ring).
  change ([0 * c; 0 * c; 0 * c] ++ ?l) with (0 * c :: 0 * c :: 0 * c :: l). cbn [nth].
  assert (Hl : length (flat_map (fun k => [1/4 * INR k * c; 1/4 * INR k * c]) (seq 1 n)) = (2 * n)%nat).
  { pose proof (quarter_len n c) as H. unfold quarter_knots in H. rewrite !app_length in H. cbn [length] in H. lia. }
  assert (Hd : ((S (S (S i)) - 1) / 2 = S (i / 2))%nat).
  { replace (S (S (S i)) - 1)%nat with (i + 1 * 2)%nat by lia. rewrite Nat.div_add by lia. lia. }
  rewrite Hd. destruct (Nat.lt_ge_cases i (2 * n)).
  - rewrite app_nth1 by lia. rewrite flat_nth by assumption.
    assert (i / 2 < n)%nat by (apply Nat.div_lt_upper_bound; lia). rewrite Nat.min_r by lia. reflexivity.
  - rewrite app_nth2 by lia. replace (i - length _)%nat with 0%nat by lia. cbn [nth].
    assert (n <= i / 2)%nat by (apply Nat.div_le_lower_bound; lia). rewrite Nat.min_l by lia. reflexivity.
Qed.

Definition qbasis (n : nat) (c : R) : bbasis := mkB (quarter_knots n c) 2.

Lemma qbasis_wf : forall n c, (1 <= n)%nat -> 0 < c -> well_formed (qbasis n c).
Proof.
  intros n c Hn Hc. split; cbn [knots degree qbasis].
  - intros i j Hij Hj. rewrite quarter_len in Hj. rewrite !quarter_nth by lia.
    apply Rmult_le_compat_r; [lra|]. apply Rmult_le_compat_l; [lra|]. apply le_INR.
    apply Nat.min_le_compat_l. apply Nat.div_le_mono; lia.
  - rewrite quarter_len. lia.
Qed.

Lemma wrap_len : forall l n, length (wrap_cfs l n) = n.
Proof. intros. unfold wrap_cfs. now rewrite map_length, seq_length. Qed.
Lemma wrap_nth : forall l n i, (i < n)%nat -> nth i (wrap_cfs l n) 0 = nth (i mod 8) l 0.
Proof. intros. unfold wrap_cfs. now rewrite (nth_map_seq (fun k => nth (k mod 8) l 0)). Qed.

Definition bern (u c0 c1 c2 : R) : R := (1 - u)^2 * c0 + 2 * u * (1 - u) * c1 + u^2 * c2.

(* value in quarter k *)
Lemma quarter_call : forall l n c k x, 0 < c -> (k < n)%nat ->
  (1/4 * INR k * c < x <= 1/4 * INR (S k) * c \/ (x = 0 /\ k = 0%nat)) ->
  call (mkS (qbasis n c) (wrap_cfs l (2 * n + 1))) x
  = bern (4 * x / c - INR k) (nth (2 * k mod 8) l 0) (nth ((2 * k + 1) mod 8) l 0) (nth ((2 * k + 2) mod 8) l 0).
Proof.
  intros l n c k x Hc Hk Hx.
  pose proof (qbasis_wf n c ltac:(lia) Hc) as [Hnd _].
  assert (K : forall i, (i < 2 * n + 4)%nat -> kn (qbasis n c) i = 1/4 * INR (Nat.min n ((i - 1) / 2)) * c).
  { intros i Hi. unfold kn. cbn [knots qbasis]. now apply quarter_nth. }
  assert (K1 : kn (qbasis n c) (2 * k + 1) = 1/4 * INR k * c).
  { rewrite K by lia. replace (2 * k + 1 - 1)%nat with (k * 2)%nat by lia. rewrite Nat.div_mul by lia. rewrite Nat.min_r by lia. reflexivity. }
  assert (K2 : kn (qbasis n c) (2 * k + 2) = 1/4 * INR k * c).
  { rewrite K by lia. replace (2 * k + 2 - 1)%nat with (1 + k * 2)%nat by lia. rewrite Nat.div_add by lia. change (1/2)%nat with 0%nat. rewrite Nat.min_r by lia. reflexivity. }
  assert (K3 : kn (qbasis n c) (2 * k + 3) = 1/4 * INR (S k) * c).
  { rewrite K by lia. replace (2 * k + 3 - 1)%nat with (S k * 2)%nat by lia. rewrite Nat.div_mul by lia. rewrite Nat.min_r by lia. reflexivity. }
  assert (K4 : kn (qbasis n c) (2 * k + 4) = 1/4 * INR (S k) * c).
  { rewrite K by lia. replace (2 * k + 4 - 1)%nat with (1 + S k * 2)%nat by lia. rewrite Nat.div_add by lia. change (1/2)%nat with 0%nat. rewrite Nat.min_r by lia. reflexivity. }
  assert (Hq : 1/4 * INR k * c < 1/4 * INR (S k) * c) by (rewrite S_INR; lra).
  rewrite (call_diag _ x (2 * k + 2)); cbn [sbasis].
  - cbn [degree qbasis]. replace (2 * k + 2 - 2)%nat with (2 * k)%nat by lia. rewrite bl2.
    cbn zeta. unfold dbstep, sh. rewrite !shn_spec.
    unfold cf; cbn [coeffs].
    cbn [Nat.add].
    rewrite !(Nat.add_succ_r (2 * k)), ?Nat.add_0_r.
    replace (S (2 * k)) with (2 * k + 1)%nat by lia.
    replace (S (2 * k + 1)) with (2 * k + 2)%nat by lia.
    replace (S (2 * k + 2)) with (2 * k + 3)%nat by lia.
    replace (S (2 * k + 3)) with (2 * k + 4)%nat by lia.
    change (mkB (quarter_knots n c) 2) with (qbasis n c).
    rewrite ?K1, ?K2, ?K3, ?K4. rewrite !wrap_nth by lia.
    unfold bern. rewrite S_INR. field. lra.
  - exact Hnd.
  - unfold sized; cbn [coeffs knots sbasis qbasis degree]. rewrite wrap_len, quarter_len. lia.
  - unfold active. cbn [degree knots qbasis]. rewrite quarter_len. change (mkB (quarter_knots n c) 2) with (qbasis n c).
    split; [lia|]. split; [lia|]. replace (2 * k + 2 + 1)%nat with (2 * k + 3)%nat by lia. rewrite K2, K3.
    split; [exact Hq|]. destruct Hx as [Hx|[-> ->]]; [left; exact Hx|].
    right. rewrite (K 0%nat) by lia. change ((0 - 1)/2)%nat with 0%nat. rewrite Nat.min_0_r. cbn. repeat split; ring.
Qed.

Lemma circle_call : forall l n c tau k, 0 < c -> (k < n)%nat -> 1 <= 1/4 * INR n * c ->
  0 <= tau <= 1 -> (1/4 * INR k * c < tau <= 1/4 * INR (S k) * c \/ (tau = 0 /\ k = 0%nat)) ->
  call (circle_spline l n c) tau
  = bern (4 * tau / c - INR k) (nth (2 * k mod 8) l 0) (nth ((2 * k + 1) mod 8) l 0) (nth ((2 * k + 2) mod 8) l 0).
Proof.
  intros l n c tau k Hc Hk Hn Ht Hx. unfold circle_spline.
  change (mkB (quarter_knots n c) 2) with (qbasis n c).
  pose proof (qbasis_wf n c ltac:(lia) Hc) as Hwf.
  assert (Hsz : sized (mkS (qbasis n c) (wrap_cfs l (2 * n + 1)))).
  { unfold sized; cbn [coeffs knots sbasis qbasis degree]. rewrite wrap_len, quarter_len. lia. }
  assert (HL : forall i, (i <= 2)%nat -> nth i (quarter_knots n c) 0 = 0).
  { intros i Hi. rewrite quarter_nth by lia. replace ((i - 1) / 2)%nat with 0%nat
      by (symmetry; apply Nat.div_small; lia). rewrite Nat.min_0_r. simpl. ring. }
  assert (HR : dom_right (qbasis n c) = 1/4 * INR n * c).
  { unfold dom_right; cbn [knots degree qbasis]. rewrite quarter_len.
    replace (2 * n + 4 - 2 - 1)%nat with (2 * n + 1)%nat by lia. rewrite quarter_nth by lia.
    replace (2 * n + 1 - 1)%nat with (n * 2)%nat by lia. rewrite Nat.div_mul by lia. now rewrite Nat.min_id. }
  rewrite <- (quarter_call l n c k tau) by assumption.
  destruct (Req_dec tau 0) as [->|Hne].
  - apply crop_call_start; cbn [sbasis]; [exact Hwf|exact Hsz| | | |].
    + cbn [knots qbasis]. now rewrite HL by lia.
    + unfold dom_left; cbn [knots degree qbasis]. now rewrite HL by lia.
    + cbn [knots degree qbasis Nat.add]. rewrite quarter_nth by lia. change ((3 - 1)/2)%nat with 1%nat.
      rewrite Nat.min_r by lia. simpl. lra.
    + rewrite HR. lra.
  - apply crop_call; cbn [sbasis]; [exact Hwf|exact Hsz| | |lra].
    + unfold dom_left; cbn [knots degree qbasis]. rewrite HL by lia. lra.
    + rewrite HR. lra.
Qed.

(* base quarter *)
Definition qc (u : R) : R := bern u 1 r22 0.
Definition qs (u : R) : R := bern u 0 r22 1.
Definition qw (u : R) : R := bern u 1 r22 1.

Lemma r22_sq : r22 * r22 = 1/2.
Proof. unfold r22. pose proof (sqrt_sqrt 2 ltac:(lra)) as H. replace (sqrt 2 / 2 * (sqrt 2 / 2)) with (sqrt 2 * sqrt 2 / 4) by field. rewrite H. field. Qed.
Lemma r22_pos : 0 < r22.
Proof. unfold r22. pose proof (sqrt_lt_R0 2 ltac:(lra)). lra. Qed.

Lemma quarter_circle : forall u, qc u ^ 2 + qs u ^ 2 = qw u ^ 2.
Proof.
  intros u. unfold qc, qs, qw, bern. pose proof r22_sq as H.
  assert (E : ((1 - u)^2 * 1 + 2 * u * (1 - u) * r22 + u^2 * 0)^2 + ((1 - u)^2 * 0 + 2 * u * (1 - u) * r22 + u^2 * 1)^2
   - ((1 - u)^2 * 1 + 2 * u * (1 - u) * r22 + u^2 * 1)^2 = 4 * u^2 * (1 - u)^2 * (r22 * r22 - 1/2)) by field.
  rewrite H in E. lra.
Qed.
Lemma qw_pos : forall u, 0 <= u <= 1 -> 0 < qw u.
Proof.
  intros u Hu. unfold qw, bern. pose proof r22_pos.
  assert (0 <= 2 * u * (1 - u) * r22) by (apply Rmult_le_pos; [apply Rmult_le_pos|]; lra).
  assert (0 < (1 - u)^2 + u^2) by (replace ((1-u)^2 + u^2) with (2 * (u - 1/2)^2 + 1/2) by field; pose proof (pow2_ge_0 (u - 1/2)); lra).
  lra.
Qed.

(* quarter k: the base quarter turned by k right angles *)
Definition qturn (k : nat) (p : R * R) : R * R :=
  match (k mod 4)%nat with
  | 0%nat => p | 1%nat => (- snd p, fst p) | 2%nat => (- fst p, - snd p) | _ => (snd p, - fst p) end.

Lemma k_cases : forall k, exists m j, k = (4 * m + j)%nat /\ (j < 4)%nat.
Proof.
  intros k. exists (k / 4)%nat, (k mod 4)%nat. split; [apply Nat.div_mod; lia|apply Nat.mod_upper_bound; lia].
Qed.

Lemma quarter_cfs : forall k u,
  (bern u (nth (2 * k mod 8) cos_cfs 0) (nth ((2 * k + 1) mod 8) cos_cfs 0) (nth ((2 * k + 2) mod 8) cos_cfs 0),
   bern u (nth (2 * k mod 8) sin_cfs 0) (nth ((2 * k + 1) mod 8) sin_cfs 0) (nth ((2 * k + 2) mod 8) sin_cfs 0))
  = qturn k (qc u, qs u) /\
  bern u (nth (2 * k mod 8) weight_cfs 0) (nth ((2 * k + 1) mod 8) weight_cfs 0) (nth ((2 * k + 2) mod 8) weight_cfs 0) = qw u.
Proof.
  intros k u. destruct (k_cases k) as (m & j & -> & Hj).
  assert (M : forall a, ((2 * (4 * m + j) + a) mod 8 = (2 * j + a) mod 8)%nat).
  { intros a. replace (2 * (4 * m + j) + a)%nat with ((2 * j + a) + m * 8)%nat by lia. apply Nat.mod_add. lia. }
  assert (M0 : (2 * (4 * m + j) mod 8 = (2 * j) mod 8)%nat) by (specialize (M 0%nat); rewrite !Nat.add_0_r in M; exact M).
  unfold qturn. replace ((4 * m + j) mod 4)%nat with j
    by (symmetry; rewrite Nat.add_comm, Nat.mul_comm, Nat.mod_add by lia; apply Nat.mod_small; lia).
  rewrite !M, M0.
  destruct j as [|[|[|[|j]]]]; [| | | |lia]; (split; [apply f_equal2|]; unfold qc, qs, qw, bern; cbn; ring).
Qed.

Lemma cos_quarter : forall k, (cos (INR k * (PI/2)), sin (INR k * (PI/2))) = qturn k (1, 0).
Proof.
  intros k. destruct (k_cases k) as (m & j & -> & Hj).
  assert (E : INR (4 * m + j) * (PI/2) = INR j * (PI/2) + 2 * INR m * PI).
  { rewrite plus_INR, mult_INR. simpl. field. }
  rewrite E, cos_period, sin_period.
  unfold qturn. replace ((4 * m + j) mod 4)%nat with j
    by (symmetry; rewrite Nat.add_comm, Nat.mul_comm, Nat.mod_add by lia; apply Nat.mod_small; lia).
  destruct j as [|[|[|[|j]]]]; [| | | |lia]; cbn [fst snd].
  - simpl. rewrite Rmult_0_l, cos_0, sin_0. reflexivity.
  - simpl. rewrite Rmult_1_l, cos_PI2, sin_PI2. f_equal; ring.
  - replace (INR 2 * (PI/2)) with PI by (simpl; field). rewrite cos_PI, sin_PI. f_equal; ring.
  - replace (INR 3 * (PI/2)) with (3 * (PI/2)) by (simpl; ring). rewrite cos_3PI2, sin_3PI2. f_equal; ring.
Qed.

Lemma qturn_angle : forall k w a, qturn k (w * cos a, w * sin a) =
  (w * cos (a + INR k * (PI/2)), w * sin (a + INR k * (PI/2))).
Proof.
  intros. rewrite cos_plus, sin_plus. pose proof (cos_quarter k) as H. unfold qturn in *.
  destruct (k mod 4)%nat as [|[|[|m]]]; cbn [fst snd] in *; inversion H as [[H1 H2]]; rewrite H1, H2; f_equal; ring.
Qed.

(* angle within the base quarter *)
Lemma base_angle : forall u, 0 <= u <= 1 -> exists a,
  qc u = qw u * cos a /\ qs u = qw u * sin a /\ 0 <= a <= PI/2 /\
  (u <= 1/2 -> a <= PI/4) /\ (1/2 <= u -> PI/4 <= a) /\ (u = 0 -> a = 0) /\ (u = 1 -> a = PI/2) /\ (u = 1/2 -> a = PI/4).
Proof.
  intros u Hu. pose proof (qw_pos u Hu) as Hw. pose proof (quarter_circle u) as HQ. pose proof r22_pos as Hr. pose proof r22_sq as Hr2.
  pose proof PI_RGT_0 as HPI.
  assert (Hc : 0 <= qc u).
  { unfold qc, bern. assert (0 <= 2 * u * (1 - u) * r22) by (apply Rmult_le_pos; [apply Rmult_le_pos|]; lra). pose proof (pow2_ge_0 (1 - u)). lra. }
  assert (Hs : 0 <= qs u).
  { unfold qs, bern. assert (0 <= 2 * u * (1 - u) * r22) by (apply Rmult_le_pos; [apply Rmult_le_pos|]; lra). pose proof (pow2_ge_0 u). lra. }
  assert (Hd : qc u - qs u = 1 - 2 * u) by (unfold qc, qs, bern; ring).
  set (y := qs u / qw u).
  assert (Hy0 : 0 <= y) by (apply Rmult_le_pos; [lra|left; now apply Rinv_0_lt_compat]).
  assert (Hsw : qs u <= qw u).
  { apply Rsqr_incr_0_var; [|lra]. unfold Rsqr. pose proof (pow2_ge_0 (qc u)). nra. }
  assert (Hy1 : y <= 1).
  { unfold y. apply (Rmult_le_reg_r (qw u)); [lra|]. unfold Rdiv. rewrite Rmult_assoc, Rinv_l by lra. lra. }
  assert (Hyw : qs u = qw u * y) by (unfold y; field; lra).
  assert (Hcw : qc u = qw u * sqrt (1 - y²)).
  { assert (E : qc u * qc u = (qw u * sqrt (1 - y²)) * (qw u * sqrt (1 - y²))).
    { replace (qw u * sqrt (1 - y²) * (qw u * sqrt (1 - y²))) with (qw u * qw u * (sqrt (1 - y²) * sqrt (1 - y²))) by ring.
      rewrite sqrt_sqrt. - unfold Rsqr. replace (qw u * qw u * (1 - y * y)) with (qw u ^ 2 - (qw u * y)^2) by ring.
        rewrite <- Hyw, <- HQ. ring.
      - unfold Rsqr. nra. }
    apply Rsqr_inj; [lra|apply Rmult_le_pos; [lra|apply sqrt_pos]|exact E]. }
  pose proof (asin_bound y) as [Hb1 Hb2].
  exists (asin y).
  assert (HS : sin (asin y) = y) by (apply sin_asin; lra).
  assert (HC : cos (asin y) = sqrt (1 - y²)) by (apply cos_asin; lra).
  rewrite HS, HC.
  assert (Ha0 : 0 <= asin y).
  { destruct (Rle_lt_dec 0 (asin y)) as [|X]; [assumption|].
    exfalso. assert (sin (asin y) < sin 0) by (apply sin_increasing_1; lra). rewrite sin_0 in *. lra. }
  assert (Hlow : u <= 1/2 -> asin y <= PI/4).
  { intros H. destruct (Rle_lt_dec (asin y) (PI/4)) as [|X]; [assumption|]. exfalso.
    assert (sin (PI/4) < sin (asin y)) by (apply sin_increasing_1; lra).
    assert (cos (asin y) < cos (PI/4)) by (apply cos_decreasing_1; lra).
    rewrite sin_PI4, cos_PI4, HS, HC in *. assert (qc u < qs u); [|lra]. rewrite Hyw, Hcw. apply Rmult_lt_compat_l; lra. }
  assert (Hhigh : 1/2 <= u -> PI/4 <= asin y).
  { intros H. destruct (Rle_lt_dec (PI/4) (asin y)) as [|X]; [assumption|]. exfalso.
    assert (sin (asin y) < sin (PI/4)) by (apply sin_increasing_1; lra).
    assert (cos (PI/4) < cos (asin y)) by (apply cos_decreasing_1; lra).
    rewrite sin_PI4, cos_PI4, HS, HC in *. assert (qs u < qc u); [|lra]. rewrite Hyw, Hcw. apply Rmult_lt_compat_l; lra. }
  split; [exact Hcw|]. split; [exact Hyw|]. split; [lra|]. split; [exact Hlow|]. split; [exact Hhigh|].
  split; [|split].
  - intros ->. replace y with 0; [apply asin_0|]. unfold y, qs, qw, bern. field; try lra.
  - intros ->. replace y with 1; [apply asin_1|]. unfold y, qs, qw, bern. field; try lra.
  - intros Hh. apply Rle_antisym; [apply Hlow; lra|apply Hhigh; lra].
Qed.
