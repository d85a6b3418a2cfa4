(* Facts about arctan2: polar coordinates, range, angles up to full turns. *)
Require Import Reals List Lra Lia ZArith.
From Verif Require Import Angle_Model.
Import ListNotations.
Open Scope R_scope.

Lemma sqrt_ratio : forall x y, 0 < x -> sqrt (x * x + y * y) = x * sqrt (1 + (y / x)²).
Proof.
  intros x y H. replace (x * x + y * y) with ((x * x) * (1 + (y / x)²)) by (unfold Rsqr; field; lra).
  rewrite sqrt_mult_alt by nra. rewrite sqrt_square by lra. reflexivity.
Qed.
Lemma sqrt_one_plus_pos : forall t, 0 < sqrt (1 + t²).
Proof. intros t. apply sqrt_lt_R0. pose proof (Rle_0_sqr t). lra. Qed.

Lemma polar_pos : forall x y, 0 < x ->
  sqrt (x * x + y * y) * cos (atan (y / x)) = x /\ sqrt (x * x + y * y) * sin (atan (y / x)) = y.
Proof.
  intros x y H. rewrite (sqrt_ratio x y H), cos_atan, sin_atan.
  pose proof (sqrt_one_plus_pos (y / x)). split; field; lra.
Qed.

Theorem atan2_polar : forall y x,
  sqrt (x * x + y * y) * cos (atan2 y x) = x /\ sqrt (x * x + y * y) * sin (atan2 y x) = y.
Proof.
  intros y x. unfold atan2. destruct (Rlt_dec 0 x) as [P|P]; [apply polar_pos; exact P|].
  destruct (Rlt_dec x 0) as [N|N].
  - assert (M : 0 < - x) by lra. destruct (polar_pos (- x) (- y) M) as (C & S).
    replace (- y / - x) with (y / x) in C, S by (field; lra).
    replace (- x * - x + - y * - y) with (x * x + y * y) in C, S by ring.
    destruct (Rle_dec 0 y).
    + rewrite neg_cos, neg_sin. split; lra.
    + assert (E1 : cos (atan (y / x) - PI) = - cos (atan (y / x))).
      { rewrite cos_minus, cos_PI, sin_PI. ring. }
      assert (E2 : sin (atan (y / x) - PI) = - sin (atan (y / x))).
      { rewrite sin_minus, cos_PI, sin_PI. ring. }
      rewrite E1, E2. split; lra.
  - assert (x = 0) by lra. subst x. replace (0 * 0 + y * y) with (y * y) by ring.
    destruct (Rlt_dec 0 y) as [Q|Q].
    + rewrite sqrt_square by lra. rewrite cos_PI2, sin_PI2. split; lra.
    + destruct (Rlt_dec y 0) as [Q2|Q2].
      * replace (y * y) with (- y * - y) by ring. rewrite sqrt_square by lra.
        rewrite cos_neg, sin_neg, cos_PI2, sin_PI2. split; lra.
      * assert (y = 0) by lra. subst y. rewrite Rmult_0_l, sqrt_0. split; lra.
Qed.

Theorem atan2_range : forall y x, - PI < atan2 y x <= PI.
Proof.
  intros y x. pose proof PI_RGT_0. unfold atan2.
  destruct (Rlt_dec 0 x) as [P|P]; [pose proof (atan_bound (y / x)); lra|].
  destruct (Rlt_dec x 0) as [N|N].
  - pose proof (atan_bound (y / x)). destruct (Rle_dec 0 y).
    + assert (y / x <= 0).
      { apply Ropp_le_cancel. rewrite Ropp_0. replace (- (y / x)) with (y * / - x) by (field; lra).
        apply Rmult_le_pos; [lra|]. left; apply Rinv_0_lt_compat; lra. }
      assert (A : atan (y / x) <= 0).
      { rewrite <- atan_0. destruct (Req_dec (y / x) 0) as [E|E]; [rewrite E; lra|].
        left. apply atan_increasing. lra. }
      lra.
    + assert (0 < y / x).
      { replace (y / x) with (- y * / - x) by (field; lra). apply Rmult_lt_0_compat; [lra|]. apply Rinv_0_lt_compat; lra. }
      assert (A : 0 < atan (y / x)).
      { rewrite <- atan_0. apply atan_increasing. assumption. }
      lra.
  - destruct (Rlt_dec 0 y); [lra|]. destruct (Rlt_dec y 0); lra.
Qed.

(* equality up to full turns *)
Definition turns (a b : R) : Prop := exists z : Z, a = b + IZR z * (2 * PI).

Lemma turns_refl : forall a, turns a a.
Proof. intros a; exists 0%Z; lra. Qed.
Lemma turns_sym : forall a b, turns a b -> turns b a.
Proof. intros a b (z & E). exists (- z)%Z. rewrite opp_IZR. lra. Qed.
Lemma turns_trans : forall a b c, turns a b -> turns b c -> turns a c.
Proof. intros a b c (z & E) (w & F). exists (z + w)%Z. rewrite plus_IZR. lra. Qed.
Lemma turns_plus : forall a b c d, turns a b -> turns c d -> turns (a + c) (b + d).
Proof. intros a b c d (z & E) (w & F). exists (z + w)%Z. rewrite plus_IZR. lra. Qed.
Lemma turns_opp : forall a b, turns a b -> turns (- a) (- b).
Proof. intros a b (z & E). exists (- z)%Z. rewrite opp_IZR. lra. Qed.
Lemma turns_eq : forall a b, turns a b -> 0 <= a < 2 * PI -> 0 <= b < 2 * PI -> a = b.
Proof.
  intros a b (z & E) A B. pose proof PI_RGT_0 as P.
  assert (z = 0)%Z.
  { assert (IZR z * (2 * PI) < 2 * PI) by lra. assert (- (2 * PI) < IZR z * (2 * PI)) by lra.
    assert (L : IZR z < 1) by (apply (Rmult_lt_reg_r (2 * PI)); lra).
    assert (G : -1 < IZR z) by (apply (Rmult_lt_reg_r (2 * PI)); lra).
    apply lt_IZR in L. apply (lt_IZR (-1)) in G. lia. }
  subst z. lra.
Qed.

Lemma turns_cos_nat : forall a n, cos (a + INR n * (2 * PI)) = cos a /\ sin (a + INR n * (2 * PI)) = sin a.
Proof.
  intros a n. split.
  - replace (a + INR n * (2 * PI)) with (a + 2 * INR n * PI) by ring. apply cos_period.
  - replace (a + INR n * (2 * PI)) with (a + 2 * INR n * PI) by ring. apply sin_period.
Qed.
Lemma turns_cos : forall a b, turns a b -> cos a = cos b /\ sin a = sin b.
Proof.
  intros a b (z & ->). destruct z as [|p|p].
  - rewrite Rmult_0_l, Rplus_0_r. auto.
  - replace (IZR (Z.pos p)) with (INR (Pos.to_nat p)) by (rewrite INR_IZR_INZ, positive_nat_Z; reflexivity).
    apply turns_cos_nat.
  - set (c := b + IZR (Z.neg p) * (2 * PI)).
    replace b with (c + INR (Pos.to_nat p) * (2 * PI)).
    + destruct (turns_cos_nat c (Pos.to_nat p)) as (-> & ->). auto.
    + unfold c. rewrite INR_IZR_INZ, positive_nat_Z. change (Z.neg p) with (- Z.pos p)%Z. rewrite opp_IZR. ring.
Qed.

Lemma cos_sin_zero_half : forall a, cos a = 1 -> sin a = 0 -> exists z : Z, a = IZR z * (2 * PI).
Proof.
  intros a C S. destruct (sin_eq_0_0 a S) as (k & K).
  destruct (Z.Even_or_Odd k) as [(m & M)|(m & M)].
  - exists m. rewrite K, M, mult_IZR. ring.
  - exfalso. assert (E : turns a PI).
    { exists m. rewrite K, M, plus_IZR, mult_IZR. ring. }
    destruct (turns_cos _ _ E) as (E1 & _). rewrite cos_PI in E1. lra.
Qed.
Lemma cos_sin_turns : forall a b, cos a = cos b -> sin a = sin b -> turns a b.
Proof.
  intros a b C S. destruct (cos_sin_zero_half (a - b)) as (z & Z).
  - rewrite cos_minus, C, S. pose proof (sin2_cos2 b) as H. unfold Rsqr in H. lra.
  - rewrite sin_minus, C, S. ring.
  - exists z. lra.
Qed.

Lemma hypot_pos : forall x y, x <> 0 \/ y <> 0 -> 0 < sqrt (x * x + y * y).
Proof.
  intros x y H. apply sqrt_lt_R0. pose proof (Rle_0_sqr x) as A. pose proof (Rle_0_sqr y) as B. unfold Rsqr in *.
  destruct H as [H|H].
  - assert (0 < x * x) by (apply Rsqr_pos_lt; exact H). lra.
  - assert (0 < y * y) by (apply Rsqr_pos_lt; exact H). lra.
Qed.

(* the angle of r (cos a, sin a) is a up to full turns *)
Lemma atan2_of_polar : forall r a, 0 < r -> turns (atan2 (r * sin a) (r * cos a)) a.
Proof.
  intros r a R. destruct (atan2_polar (r * sin a) (r * cos a)) as (C & S).
  assert (H : sqrt (r * cos a * (r * cos a) + r * sin a * (r * sin a)) = r).
  { pose proof (sin2_cos2 a) as Q. unfold Rsqr in Q.
    replace (r * cos a * (r * cos a) + r * sin a * (r * sin a)) with (r * r * (sin a * sin a + cos a * cos a)) by ring.
    rewrite Q, Rmult_1_r. apply sqrt_square; lra. }
  rewrite H in C, S. apply cos_sin_turns; apply (Rmult_eq_reg_l r); lra.
Qed.

Lemma linspace_length : forall a b n, length (linspace a b n) = n.
Proof. intros a b n. unfold linspace. rewrite map_length, seq_length. reflexivity. Qed.
Lemma linspace_nth : forall a b n k d, (k < n)%nat ->
  nth k (linspace a b n) d = a + INR k * ((b - a) / INR (n - 1)).
Proof.
  intros a b n k d H. unfold linspace.
  rewrite (nth_indep _ d ((fun k => a + INR k * ((b - a) / INR (n - 1))) 0%nat)) by (rewrite map_length, seq_length; exact H).
  rewrite (map_nth (fun k => a + INR k * ((b - a) / INR (n - 1)))), seq_nth by exact H. reflexivity.
Qed.
Lemma linspace_first : forall a b n d, (0 < n)%nat -> nth 0 (linspace a b n) d = a.
Proof. intros a b n d H. rewrite linspace_nth by exact H. simpl INR. ring. Qed.
Lemma linspace_last : forall a b n d, (1 < n)%nat -> nth (n - 1) (linspace a b n) d = b.
Proof.
  intros a b n d H. rewrite linspace_nth by lia.
  assert (0 < INR (n - 1)) by (apply (lt_INR 0); lia). field. lra.
Qed.
