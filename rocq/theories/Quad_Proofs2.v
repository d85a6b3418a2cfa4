(** SimpleQuadrotor3D: limits, start and end constraints. *)
From Coq Require Import Reals List Arith Bool Lia Lra Psatz.
From Verif Require Import Angle_Model Angle_Proofs Vehicle_Model Wheel_Model Quad_Model Vehicle_Spec
  Vehicle_Proofs Vehicle_Proofs2 Wheel_Proofs Wheel_Proofs2 Wheel_Proofs3 Quad_Proofs.
Import ListNotations.
Open Scope R_scope.

(** what the constraints say in physical time; a, b, c as in the code *)
Lemma simple3d_meaning : forall u1min u1max u2min u2max u3min u3max phimin phimax thmin thmax T env, 0 < T ->
  let a := phys T (env 0%nat) 2 in let b := phys T (env 1%nat) 2 in let c := phys T (env 2%nat) 2 + gravity in
  let a' := phys T (env 0%nat) 3 in let b' := phys T (env 1%nat) 3 in let c' := phys T (env 2%nat) 3 in
  (holds env (simple3d_constraints u1min u1max u2min u2max u3min u3max phimin phimax thmin thmax T) <->
   (u1min ^ 2 <= a ^ 2 + b ^ 2 + c ^ 2 <= u1max ^ 2) /\
   (c ^ 2 * u2min <= - b' * c + c' * b <= c ^ 2 * u2max) /\
   (c ^ 2 * u3min <= a' * c - c' * a <= c ^ 2 * u3max) /\
   (c * phimin <= - b <= c * phimax) /\ (c * thmin <= a <= c * thmax)).
Proof.
  intros u1min u1max u2min u2max u3min u3max phimin phimax thmin thmax T env P a b c a' b' c'.
  assert (T2 : 0 < T ^ 2) by (apply pow_lt; exact P). assert (T3 : 0 < T ^ 3) by (apply pow_lt; exact P).
  assert (T4 : 0 < T ^ 4) by (apply pow_lt; exact P). assert (T5 : 0 < T ^ 5) by (apply pow_lt; exact P).
  unfold simple3d_constraints. open_holds.
  assert (EA : env 0%nat 2%nat = T ^ 2 * a) by (unfold a; rewrite phys2; field; lra).
  assert (EB : env 1%nat 2%nat = T ^ 2 * b) by (unfold b; rewrite phys2; field; lra).
  assert (EC : env 2%nat 2%nat + gravity * T ^ 2 = T ^ 2 * c) by (unfold c; rewrite phys2; field; lra).
  assert (EA' : env 0%nat 3%nat = T ^ 3 * a') by (unfold a'; rewrite phys3; field; lra).
  assert (EB' : env 1%nat 3%nat = T ^ 3 * b') by (unfold b'; rewrite phys3; field; lra).
  assert (EC' : env 2%nat 3%nat = T ^ 3 * c') by (unfold c'; rewrite phys3; field; lra).
  rewrite EC, EA, EB, EA', EB', EC'. clear EA EB EC EA' EB' EC'. clearbody a b c a' b' c'.
  assert (K : forall m u, 0 < m -> (m * u <= 0 <-> u <= 0)).
  { intros m u M. split; intros G.
    - apply (Rmult_le_reg_l m); [exact M|]. lra.
    - replace 0 with (m * 0) by ring. apply Rmult_le_compat_l; lra. }
  replace (- ((T ^ 2 * a) ^ 2 + (T ^ 2 * b) ^ 2 + (T ^ 2 * c) ^ 2) + T ^ 4 * u1min ^ 2)
    with (T ^ 4 * (u1min ^ 2 - (a ^ 2 + b ^ 2 + c ^ 2))) by ring.
  replace ((T ^ 2 * a) ^ 2 + (T ^ 2 * b) ^ 2 + (T ^ 2 * c) ^ 2 - T ^ 4 * u1max ^ 2)
    with (T ^ 4 * (a ^ 2 + b ^ 2 + c ^ 2 - u1max ^ 2)) by ring.
  replace (- (T ^ 3 * b' * (T ^ 2 * c)) + T ^ 3 * c' * (T ^ 2 * b) - (T ^ 2 * c) ^ 2 * T * u2max)
    with (T ^ 5 * (- b' * c + c' * b - c ^ 2 * u2max)) by ring.
  replace (T ^ 3 * b' * (T ^ 2 * c) - T ^ 3 * c' * (T ^ 2 * b) + (T ^ 2 * c) ^ 2 * T * u2min)
    with (T ^ 5 * (b' * c - c' * b + c ^ 2 * u2min)) by ring.
  replace (T ^ 3 * a' * (T ^ 2 * c) - T ^ 3 * c' * (T ^ 2 * a) - (T ^ 2 * c) ^ 2 * T * u3max)
    with (T ^ 5 * (a' * c - c' * a - c ^ 2 * u3max)) by ring.
  replace (- (T ^ 3 * a' * (T ^ 2 * c)) + T ^ 3 * c' * (T ^ 2 * a) + (T ^ 2 * c) ^ 2 * T * u3min)
    with (T ^ 5 * (- (a' * c) + c' * a + c ^ 2 * u3min)) by ring.
  replace (- (T ^ 2 * b) - T ^ 2 * c * phimax) with (T ^ 2 * (- b - c * phimax)) by ring.
  replace (T ^ 2 * b + T ^ 2 * c * phimin) with (T ^ 2 * (b + c * phimin)) by ring.
  replace (T ^ 2 * a - T ^ 2 * c * thmax) with (T ^ 2 * (a - c * thmax)) by ring.
  replace (- (T ^ 2 * a) + T ^ 2 * c * thmin) with (T ^ 2 * (- a + c * thmin)) by ring.
  rewrite !(K _ _ T4), !(K _ _ T5), !(K _ _ T2). pose proof (holds_nil env). intuition lra.
Qed.

Lemma atan_le_self : forall m, 0 <= m -> atan m <= m.
Proof.
  intros m H. pose proof (atan_bound m) as B.
  assert (A : 0 <= atan m).
  { destruct (Req_dec m 0) as [E|E]; [rewrite E, atan_0; lra|]. left. rewrite <- atan_0. apply atan_increasing. lra. }
  pose proof (tan_ge_id (atan m) A ltac:(lra)) as K. rewrite tan_atan in K. exact K.
Qed.
Lemma atan_mono : forall u v, u <= v -> atan u <= atan v.
Proof. intros u v [L|E]; [left; apply atan_increasing; exact L|rewrite E; lra]. Qed.
Lemma s_ge_c : forall a c, 0 < c -> c <= sqrt (a ^ 2 + c ^ 2).
Proof.
  intros a c H. rewrite <- (sqrt_pow2 c) at 1 by lra. apply sqrt_le_1_alt. pose proof (pow2_ge_0 a). lra.
Qed.
(** roll and pitch: between minus and plus the limits; the limits are applied
    to tangents, so they are kept, but tightened *)
Lemma roll_ok : forall x y z : jet, let c := z 2%nat + gravity in 0 < c ->
  forall lim, 0 <= lim -> - (c * lim) <= y 2%nat <= c * lim -> - lim <= simple3d_phi x y z <= lim.
Proof.
  intros x y z c CP lim L B. unfold simple3d_phi. fold c.
  pose proof (s_ge_c (x 2%nat) c CP) as SC. set (s := sqrt (x 2%nat ^ 2 + c ^ 2)) in *.
  rewrite atan2_right by lra. set (b := y 2%nat) in *.
  assert (U : - lim <= - b / s <= lim).
  { assert (c * lim <= s * lim) by (apply Rmult_le_compat_r; lra).
    split; apply (Rmult_le_reg_r s); try lra; replace (- b / s * s) with (- b) by (field; lra); lra. }
  pose proof (atan_le_self lim L). split.
  - apply Rle_trans with (- atan lim); [lra|]. rewrite <- atan_opp. apply atan_mono; lra.
  - apply Rle_trans with (atan lim); [apply atan_mono; lra|lra].
Qed.
Lemma pitch_ok : forall x y z : jet, let c := z 2%nat + gravity in 0 < c ->
  forall lim, 0 <= lim -> - (c * lim) <= x 2%nat <= c * lim -> - lim <= simple3d_theta x y z <= lim.
Proof.
  intros x y z c CP lim L B. unfold simple3d_theta. fold c.
  rewrite atan2_right by lra. set (a := x 2%nat) in *.
  assert (U : - lim <= a / c <= lim).
  { split; apply (Rmult_le_reg_r c); try lra; replace (a / c * c) with a by (field; lra); lra. }
  pose proof (atan_le_self lim L). split.
  - apply Rle_trans with (- atan lim); [lra|]. rewrite <- atan_opp. apply atan_mono; lra.
  - apply Rle_trans with (atan lim); [apply atan_mono; lra|lra].
Qed.

(** rates *)
Lemma abs_between : forall u m, - m <= u <= m <-> Rabs u <= m.
Proof. intros u m. unfold Rabs. destruct (Rcase_abs u); split; lra. Qed.
Lemma u3_ok : forall x y z : jet, let c := z 2%nat + gravity in 0 < c ->
  forall m, 0 <= m -> - (c ^ 2 * m) <= x 3%nat * c - z 3%nat * x 2%nat <= c ^ 2 * m ->
  - m <= simple3d_u3 x y z <= m.
Proof.
  intros x y z c CP m M B. unfold simple3d_u3. fold c. set (a := x 2%nat) in *.
  assert (Q : 0 < c ^ 2 + a ^ 2) by (pose proof (pow2_ge_0 a); pose proof (pow_lt c 2 CP); lra).
  assert (W : c ^ 2 * m <= (c ^ 2 + a ^ 2) * m) by (apply Rmult_le_compat_r; [exact M|pose proof (pow2_ge_0 a); lra]).
  split; apply (Rmult_le_reg_r (c ^ 2 + a ^ 2)); try exact Q;
    replace ((c * x 3%nat - a * z 3%nat) / (c ^ 2 + a ^ 2) * (c ^ 2 + a ^ 2)) with (c * x 3%nat - a * z 3%nat) by (field; lra);
    lra.
Qed.
Lemma u2_formula : forall x y z : jet, let c := z 2%nat + gravity in 0 < c ->
  let a := x 2%nat in let b := y 2%nat in let s := sqrt (a ^ 2 + c ^ 2) in
  simple3d_u2 x y z = (s * s * (- y 3%nat * c + z 3%nat * b) + a * b * (x 3%nat * c - z 3%nat * a)) / (c * s * (s * s + b ^ 2)).
Proof.
  intros x y z c CP a b s. unfold simple3d_u2. fold c a b s.
  pose proof (simple_s a c) as SS. fold s in SS.
  assert (SP : 0 < s) by (pose proof (s_ge_c a c CP); fold s in H; lra).
  pose proof (pow2_ge_0 b). pose proof (Rmult_lt_0_compat s s SP SP).
  replace (a ^ 2 + b ^ 2 + c ^ 2) with (s * s + b ^ 2) by lra.
  replace (s * s * (- y 3%nat * c + z 3%nat * b) + a * b * (x 3%nat * c - z 3%nat * a))
    with (c * (- y 3%nat * (a ^ 2 + c ^ 2) + b * (a * x 3%nat + z 3%nat * c))) by (rewrite SS; ring).
  field. repeat split; lra.
Qed.
Lemma u2_ok : forall x y z : jet, let c := z 2%nat + gravity in 0 < c ->
  forall m2 m3, 0 <= m2 -> 0 <= m3 ->
  - (c ^ 2 * m2) <= - y 3%nat * c + z 3%nat * y 2%nat <= c ^ 2 * m2 ->
  - (c ^ 2 * m3) <= x 3%nat * c - z 3%nat * x 2%nat <= c ^ 2 * m3 ->
  - Rmax m2 m3 <= simple3d_u2 x y z <= Rmax m2 m3.
Proof.
  intros x y z c CP m2 m3 M2 M3 B2 B3. rewrite u2_formula by exact CP. fold c.
  set (a := x 2%nat) in *. set (b := y 2%nat) in *.
  set (N := - y 3%nat * c + z 3%nat * b) in *. set (w := x 3%nat * c - z 3%nat * a) in *.
  clearbody N w.
  pose proof (simple_s a c) as SS. pose proof (s_ge_c a c CP) as SC. set (s := sqrt (a ^ 2 + c ^ 2)) in *.
  assert (SP : 0 < s) by lra.
  set (m := Rmax m2 m3). assert (MA : m2 <= m) by apply Rmax_l. assert (MB : m3 <= m) by apply Rmax_r.
  assert (C2 : 0 < c ^ 2) by (apply pow_lt; exact CP).
  assert (HN : Rabs N <= c ^ 2 * m).
  { apply (proj1 (abs_between _ _)). assert (c ^ 2 * m2 <= c ^ 2 * m) by (apply Rmult_le_compat_l; lra). split; lra. }
  assert (HW : Rabs w <= c ^ 2 * m).
  { apply (proj1 (abs_between _ _)). assert (c ^ 2 * m3 <= c ^ 2 * m) by (apply Rmult_le_compat_l; lra). split; lra. }
  assert (PB : 0 <= b ^ 2) by apply pow2_ge_0. assert (PA : 0 <= a ^ 2) by apply pow2_ge_0.
  assert (SS0 : 0 < s * s) by (apply Rmult_lt_0_compat; exact SP).
  assert (D : 0 < c * s * (s * s + b ^ 2)).
  { apply Rmult_lt_0_compat; [apply Rmult_lt_0_compat; assumption|lra]. }
  apply abs_between. unfold Rdiv. rewrite Rabs_mult, Rabs_inv, (Rabs_right (c * s * (s * s + b ^ 2))) by lra.
  apply (Rmult_le_reg_r (c * s * (s * s + b ^ 2))); [exact D|].
  rewrite Rmult_assoc, Rinv_l, Rmult_1_r by lra.
  assert (T1 : Rabs (s * s * N + a * b * w) <= (s * s + Rabs a * Rabs b) * (c ^ 2 * m)).
  { eapply Rle_trans; [apply Rabs_triang|]. rewrite !Rabs_mult, (Rabs_right s) by lra.
    assert (s * s * Rabs N <= s * s * (c ^ 2 * m)) by (apply Rmult_le_compat_l; lra).
    assert (0 <= Rabs a * Rabs b) by (apply Rmult_le_pos; apply Rabs_pos).
    assert (Rabs a * Rabs b * Rabs w <= Rabs a * Rabs b * (c ^ 2 * m)) by (apply Rmult_le_compat_l; assumption). lra. }
  eapply Rle_trans; [exact T1|].
  assert (M0 : 0 <= m) by lra.
  set (A := Rabs a) in *. set (B := Rabs b) in *.
  assert (A0 : 0 <= A) by apply Rabs_pos. assert (B0 : 0 <= B) by apply Rabs_pos.
  assert (EA : a ^ 2 = A ^ 2) by (unfold A; rewrite pow2_abs; reflexivity).
  assert (EB : b ^ 2 = B ^ 2) by (unfold B; rewrite pow2_abs; reflexivity).
  rewrite EA in *. rewrite EB in *.
  (* c (s^2 + A B) <= s (s^2 + B^2) *)
  assert (KEY : c * (s * s + A * B) <= s * (s * s + B ^ 2)).
  { assert (Q1 : (c * (s * s + A * B)) ^ 2 <= (s * (s * s + B ^ 2)) ^ 2).
    { assert (CS : (s * s + A * B) ^ 2 <= (s * s + A ^ 2) * (s * s + B ^ 2)).
      { pose proof (pow2_ge_0 (s * A - s * B)). lra. }
      assert (CC : c ^ 2 * (s * s + A ^ 2) <= (s * s) ^ 2).
      { replace (c ^ 2) with (s * s - A ^ 2) by lra. pose proof (pow2_ge_0 (A ^ 2)). lra. }
      assert (P0 : 0 <= s * s + B ^ 2) by lra.
      replace ((c * (s * s + A * B)) ^ 2) with (c ^ 2 * (s * s + A * B) ^ 2) by ring.
      apply Rle_trans with (c ^ 2 * ((s * s + A ^ 2) * (s * s + B ^ 2))); [apply Rmult_le_compat_l; lra|].
      rewrite <- Rmult_assoc.
      apply Rle_trans with ((s * s) ^ 2 * (s * s + B ^ 2)); [apply Rmult_le_compat_r; assumption|].
      replace ((s * (s * s + B ^ 2)) ^ 2) with (s * s * (s * s + B ^ 2) * (s * s + B ^ 2)) by ring.
      apply Rmult_le_compat_r; [exact P0|].
      replace ((s * s) ^ 2) with (s * s * (s * s)) by ring. apply Rmult_le_compat_l; lra. }
    apply Rsqr_incr_0_var; [unfold Rsqr; lra|].
    apply Rmult_le_pos; lra. }
  replace ((s * s + A * B) * (c ^ 2 * m)) with (c * (s * s + A * B) * (c * m)) by ring.
  replace (m * (c * s * (s * s + B ^ 2))) with (s * (s * s + B ^ 2) * (c * m)) by ring.
  apply Rmult_le_compat_r; [apply Rmult_le_pos; lra|exact KEY].
Qed.

Lemma simple3d_limits : forall u1min u1max m2 m3 mphi mth T env, 0 < T -> 0 <= u1min -> 0 <= u1max ->
  0 <= m2 -> 0 <= m3 -> 0 <= mphi -> 0 <= mth ->
  let x := phys T (env 0%nat) in let y := phys T (env 1%nat) in let z := phys T (env 2%nat) in
  0 < z 2%nat + gravity ->
  holds env (simple3d_constraints u1min u1max (- m2) m2 (- m3) m3 (- mphi) mphi (- mth) mth T) ->
  u1min <= simple3d_u1 x y z <= u1max /\ - m3 <= simple3d_u3 x y z <= m3 /\
  - Rmax m2 m3 <= simple3d_u2 x y z <= Rmax m2 m3 /\
  - mphi <= simple3d_phi x y z <= mphi /\ - mth <= simple3d_theta x y z <= mth.
Proof.
  intros u1min u1max m2 m3 mphi mth T env P U1 U2 M2 M3 MP MT x y z CP H.
  apply simple3d_meaning in H; [|exact P]. fold x y z in H. cbv zeta in H.
  destruct H as (A & B & C & D & E).
  split; [|split; [|split; [|split]]].
  - unfold simple3d_u1.
    assert (0 <= x 2%nat ^ 2 + y 2%nat ^ 2 + (z 2%nat + gravity) ^ 2).
    { pose proof (pow2_ge_0 (x 2%nat)). pose proof (pow2_ge_0 (y 2%nat)). pose proof (pow2_ge_0 (z 2%nat + gravity)). lra. }
    rewrite sqrt_le_iff, sqrt_ge_iff by assumption. exact A.
  - apply u3_ok; [exact CP|exact M3|lra].
  - apply u2_ok; [exact CP|exact M2|exact M3|lra|lra].
  - apply roll_ok; [exact CP|exact MP|lra].
  - apply pitch_ok; [exact CP|exact MT|lra].
Qed.
(** the limit on the roll rate alone is not kept when the limit on the pitch
    rate is larger *)
Definition wit3d : nat -> jet := fun i o =>
  match i, o with
  | 0%nat, 2%nat => 1 | 1%nat, 2%nat => 1 | 2%nat, 2%nat => 1 - gravity
  | 0%nat, 3%nat => 3 | 1%nat, 3%nat => -1 | _, _ => 0
  end.
Lemma simple3d_u2_wrong : exists u1min u1max m2 m3 mphi mth T env, 0 < T /\ 0 < u1min /\ 0 < m2 /\
  0 < phys T (env 2%nat) 2 + gravity /\
  holds env (simple3d_constraints u1min u1max (- m2) m2 (- m3) m3 (- mphi) mphi (- mth) mth T) /\
  m2 < simple3d_u2 (phys T (env 0%nat)) (phys T (env 1%nat)) (phys T (env 2%nat)).
Proof.
  exists 1, 20, 1, 3, 2, 2, 1, wit3d.
  assert (EQ : forall i o, phys 1 (wit3d i) o = wit3d i o) by (intros i o; unfold phys; rewrite pow1; field).
  assert (CE : wit3d 2%nat 2%nat + gravity = 1) by (cbn; ring).
  split; [lra|]. split; [lra|]. split; [lra|]. split; [rewrite EQ, CE; lra|]. split.
  - apply simple3d_meaning; [lra|]. cbv zeta. rewrite !EQ, CE. cbn [wit3d]. repeat split; lra.
  - rewrite u2_formula by (rewrite EQ, CE; lra). rewrite !EQ, CE. cbn [wit3d].
    replace (1 ^ 2 + 1 ^ 2) with 2 by ring.
    pose proof sqrt2_bounds as SB. assert (S2 : sqrt 2 * sqrt 2 = 2) by (apply sqrt_sqrt; lra). rewrite S2.
    apply (Rmult_lt_reg_r (1 * sqrt 2 * (2 + 1 ^ 2))); [lra|]. 
    replace ((2 * (- (-1) * 1 + 0 * 1) + 1 * 1 * (3 * 1 - 0 * 1)) / (1 * sqrt 2 * (2 + 1 ^ 2)) * (1 * sqrt 2 * (2 + 1 ^ 2)))
      with 5 by (field; lra). lra.
Qed.
(** and attitudes within the limit are excluded: the limit is used in place of
    its tangent *)
Lemma simple3d_pitch_strict : exists mth T env, 0 < T /\ 0 < mth < PI/2 /\
  0 < phys T (env 2%nat) 2 + gravity /\
  - mth <= simple3d_theta (phys T (env 0%nat)) (phys T (env 1%nat)) (phys T (env 2%nat)) <= mth /\
  forall u1min u1max m2 m3 mphi,
    ~ holds env (simple3d_constraints u1min u1max (- m2) m2 (- m3) m3 (- mphi) mphi (- mth) mth T).
Proof.
  pose proof PI_RGT_0 as P0. pose proof PI2_3_2 as PB. unfold PI2 in PB. pose proof PI_4 as P4.
  set (env := fun i o : nat => match i, o with 0%nat, 2%nat => 1 | 2%nat, 2%nat => 1 - gravity | _, _ => 0 end).
  assert (EQ : forall i o, phys 1 (env i) o = env i o) by (intros i o; unfold phys; rewrite pow1; field).
  assert (CE : env 2%nat 2%nat + gravity = 1) by (cbn; ring).
  assert (PI4L : PI / 4 < 9/10).
  { destruct (Rlt_dec (PI/4) (9/10)) as [G|G]; [exact G|exfalso].
    assert (K : tan (9/10) <= 1).
    { rewrite <- tan_PI4. destruct (Req_dec (9/10) (PI/4)) as [Z|Z]; [rewrite Z; lra|].
      left. apply tan_increasing; lra. }
    (* tan x >= x + x^3/3, here through sin and cos bounds *)
    assert (C : cos (9/10) <= 1 - (9/10) ^ 2 / 2 + (9/10) ^ 4 / 24).
    { pose proof (cos_bound (9/10) 0 ltac:(lra) ltac:(lra)) as [_ U].
      unfold cos_approx, cos_term in U. cbn in U. lra. }
    assert (S : 9/10 - (9/10) ^ 3 / 6 <= sin (9/10)).
    { pose proof (sin_bound (9/10) 0 ltac:(lra) ltac:(lra)) as [U _].
      unfold sin_approx, sin_term in U. cbn in U. lra. }
    assert (CP : 0 < cos (9/10)) by (apply cos_gt_0; lra).
    assert (T : sin (9/10) = tan (9/10) * cos (9/10)) by (unfold tan; field; lra).
    assert (tan (9/10) * cos (9/10) <= 1 * cos (9/10)) by (apply Rmult_le_compat_r; lra). lra. }
  exists (9/10), 1, env. split; [lra|]. split; [lra|]. split; [rewrite EQ, CE; lra|]. split.
  - unfold simple3d_theta. rewrite !EQ, CE. cbn [env]. rewrite atan2_right by lra.
    replace (1 / 1) with 1 by field. rewrite atan_1. lra.
  - intros u1min u1max m2 m3 mphi H. apply simple3d_meaning in H; [|lra]. cbv zeta in H. rewrite !EQ, CE in H.
    cbn [env] in H. lra.
Qed.

(** ** start and end *)
Lemma turns_eq_pi : forall a b, turns a b -> - PI < a <= PI -> - PI < b <= PI -> a = b.
Proof.
  intros a b (z & E) A B. pose proof PI_RGT_0 as P.
  assert (z = 0)%Z.
  { assert (IZR z * (2 * PI) < 2 * PI) by lra. assert (- (2 * PI) < IZR z * (2 * PI)) by lra.
    assert (IZR z < 1) by (apply (Rmult_lt_reg_r (2 * PI)); lra).
    assert (-1 < IZR z) by (apply (Rmult_lt_reg_r (2 * PI)); lra).
    apply lt_IZR in H1. apply lt_IZR in H2. lia. }
  subst z. lra.
Qed.
Lemma atan2_back : forall r a, 0 < r -> - PI < a <= PI -> atan2 (r * sin a) (r * cos a) = a.
Proof. intros r a R0 A. apply turns_eq_pi; [apply atan2_of_polar; exact R0|apply atan2_range|exact A]. Qed.
Lemma simple3d_init_ok : forall px py pz vx vy vz phi th f0 T env, 0 < T -> 0 < f0 ->
  - (PI/2) < phi < PI/2 -> - PI < th <= PI ->
  let x := phys T (env 0%nat) in let y := phys T (env 1%nat) in let z := phys T (env 2%nat) in
  holds env (map init_constraint (simple3d_init (px, py, pz) (vx, vy, vz) phi th f0 T)) ->
  simple3d_state x y z = [px; py; pz; vx; vy; vz; phi; th] /\ simple3d_u1 x y z = f0.
Proof.
  intros px py pz vx vy vz phi th f0 T env P F PH TH x y z. unfold simple3d_init. open_init.
  assert (T2 : 0 < T ^ 2) by (apply pow_lt; exact P).
  intros (A1 & A2 & A3 & B1 & B2 & B3 & C1 & C2 & C3 & _).
  assert (CP : 0 < cos phi) by (apply cos_gt_0; lra).
  assert (EX : x 2%nat = f0 * cos phi * sin th) by (unfold x; rewrite phys2, C1; field; lra).
  assert (EY : y 2%nat = - f0 * sin phi) by (unfold y; rewrite phys2, C2; field; lra).
  assert (EZ : z 2%nat + gravity = f0 * cos phi * cos th) by (unfold z; rewrite phys2, C3; field; lra).
  pose proof (sin2_cos2 th) as ST. pose proof (sin2_cos2 phi) as SP. unfold Rsqr in ST, SP.
  assert (RP : 0 < f0 * cos phi) by (apply Rmult_lt_0_compat; assumption).
  assert (S : sqrt (x 2%nat ^ 2 + (z 2%nat + gravity) ^ 2) = f0 * cos phi).
  { rewrite EX, EZ. replace ((f0 * cos phi * sin th) ^ 2 + (f0 * cos phi * cos th) ^ 2)
      with ((f0 * cos phi) ^ 2 * (sin th * sin th + cos th * cos th)) by ring.
    rewrite ST, Rmult_1_r. apply sqrt_pow2. lra. }
  split.
  - unfold simple3d_state, simple3d_phi, simple3d_theta. rewrite S, EX, EY, EZ.
    rewrite (atan2_back (f0 * cos phi) th RP TH).
    replace (- (- f0 * sin phi)) with (f0 * sin phi) by ring. rewrite (atan2_back f0 phi F ltac:(lra)).
    unfold x, y, z. rewrite !phys0, !phys1, A1, A2, A3, B1, B2, B3.
    replace (T * vx / T) with vx by (field; lra). replace (T * vy / T) with vy by (field; lra).
    replace (T * vz / T) with vz by (field; lra). reflexivity.
  - unfold simple3d_u1. rewrite EX, EY, EZ.
    replace ((f0 * cos phi * sin th) ^ 2 + (- f0 * sin phi) ^ 2 + (f0 * cos phi * cos th) ^ 2)
      with (f0 ^ 2 * (cos phi * cos phi * (sin th * sin th + cos th * cos th) + sin phi * sin phi)) by ring.
    rewrite ST. replace (cos phi * cos phi * 1 + sin phi * sin phi) with (sin phi * sin phi + cos phi * cos phi) by ring.
    rewrite SP, Rmult_1_r. apply sqrt_pow2. lra.
Qed.
Lemma simple3d_term_ok : forall px py pz T env tol, 0 < T -> 0 <= tol ->
  let x := phys T (env 0%nat) in let y := phys T (env 1%nat) in let z := phys T (env 2%nat) in
  holds env (map term_constraint (simple3d_term px py pz)) ->
  arrived tol (vsub [x 0%nat; y 0%nat; z 0%nat] [px; py; pz]) [x 1%nat; y 1%nat; z 1%nat] = true /\
  simple3d_state x y z = [px; py; pz; 0; 0; 0; 0; 0] /\ simple3d_u1 x y z = gravity.
Proof.
  intros px py pz T env tol P TP x y z. unfold simple3d_term. open_init.
  intros (A1 & A2 & A3 & B1 & B2 & B3 & C1 & C2 & C3 & _). unfold vsub. cbn [combine map fst snd].
  assert (T2 : 0 < T ^ 2) by (apply pow_lt; exact P). assert (GP : 0 < gravity) by (unfold gravity; lra).
  unfold simple3d_state, simple3d_phi, simple3d_theta, simple3d_u1, x, y, z.
  rewrite !phys0, !phys1, !phys2, A1, A2, A3, B1, B2, B3, C1, C2, C3.
  replace (0 / T ^ 2) with 0 by (field; lra). replace (0 / T) with 0 by (field; lra).
  split; [|split].
  - apply arrived_zero; [exact TP| |]; zeros.
  - replace (0 ^ 2 + (0 + gravity) ^ 2) with (gravity ^ 2) by ring. rewrite sqrt_pow2 by lra.
    rewrite !atan2_right by lra.
    replace (- 0 / gravity) with 0 by (field; lra). replace (0 / (0 + gravity)) with 0 by (field; lra). rewrite atan_0. reflexivity.
  - replace (0 ^ 2 + 0 ^ 2 + (0 + gravity) ^ 2) with (gravity ^ 2) by ring. apply sqrt_pow2. lra.
Qed.
