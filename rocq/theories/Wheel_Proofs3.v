(** Start and end constraints, fleet centre, trailer. *)
From Coq Require Import Reals List Arith Bool Lia Lra Psatz.
From Verif Require Import Angle_Model Angle_Proofs Vehicle_Model Wheel_Model Vehicle_Spec
  Vehicle_Proofs Vehicle_Proofs2 Wheel_Proofs Wheel_Proofs2.
Import ListNotations.
Open Scope R_scope.

Lemma holds_init : forall env a b, holds1 env (init_constraint [a; b]) <-> sval env a = sval env b.
Proof. intros env a b. unfold holds1, init_constraint; cbn. lra. Qed.
Lemma holds_term : forall env e r, holds1 env (term_constraint (e, r)) <-> sval env e = r.
Proof. intros env e r. unfold holds1, term_constraint; cbn. lra. Qed.
Ltac open_init := cbn [map app flat_map seq]; rewrite ?holds_cons, ?holds_init, ?holds_term; cbn [sval].

Lemma eq_scaled : forall T d v, 0 < T -> (d = T * v <-> d / T = v).
Proof.
  intros T d v H. split; intros E; [rewrite E|rewrite <- E]; field; lra.
Qed.

(** ** holonomic *)
Lemma holonomic_init_ok : forall px py vx vy T env, 0 < T ->
  (holds env (map init_constraint (holonomic_init (px, py) (vx, vy) T)) <->
   holonomic_state (phys T (env 0%nat)) (phys T (env 1%nat)) = [px; py] /\
   holonomic_input (phys T (env 0%nat)) (phys T (env 1%nat)) = [vx; vy]).
Proof.
  intros px py vx vy T env H. unfold holonomic_init, holonomic_state, holonomic_input. cbn [fst snd]. open_init.
  rewrite !phys0, !phys1, !(eq_scaled T) by exact H. pose proof (holds_nil env). split.
  - intros (A & B & C & D & _). rewrite A, B, C, D. auto.
  - intros [A B]. injection A as A1 A2. injection B as B1 B2. auto.
Qed.
Lemma norm_zero : forall v, Forall (fun a => a = 0) v -> norm v = 0.
Proof.
  intros v F. rewrite norm_spec. replace (sumsq v) with 0; [apply sqrt_0|].
  induction F as [|a v E F IH]; cbn [sumsq]; [reflexivity|]. rewrite <- IH, E. ring.
Qed.
Lemma arrived_zero : forall tol err input, 0 <= tol -> Forall (fun a => a = 0) err -> Forall (fun a => a = 0) input ->
  arrived tol err input = true.
Proof.
  intros tol err input H A B. unfold arrived. rewrite !norm_zero by assumption.
  replace (gtb 0 tol) with false by (symmetry; apply gtb_not; exact H).
  cbn. rewrite (proj2 (gtb_not 0 tol) H). reflexivity.
Qed.
Ltac zeros := repeat (constructor; [try lra|]); try constructor.
Lemma holonomic_term_ok : forall px py T env tol, 0 < T -> 0 <= tol ->
  holds env (map term_constraint (holonomic_term (px, py))) ->
  arrived tol (vsub (holonomic_state (phys T (env 0%nat)) (phys T (env 1%nat))) [px; py])
    (holonomic_input (phys T (env 0%nat)) (phys T (env 1%nat))) = true.
Proof.
  intros px py T env tol P TP H. unfold holonomic_term in H. cbn [fst snd] in H. revert H. open_init.
  intros (A & B & C & D & _). unfold holonomic_state, holonomic_input, vsub. cbn [combine map fst snd].
  rewrite !phys0, !phys1. rewrite A, B, C, D.
  apply arrived_zero; [exact TP| |]; zeros; field; lra.
Qed.

(** ** half angle *)
Lemma half_back : forall th, - PI < th < PI -> 2 * atan (tan (th / 2)) = th.
Proof. intros th H. rewrite atan_tan by lra. field. Qed.
Lemma half_iff : forall a th, - PI < th < PI -> (a = tan (th / 2) <-> 2 * atan a = th).
Proof.
  intros a th H. split; intros E.
  - rewrite E. apply half_back; exact H.
  - rewrite <- E. replace (2 * atan a / 2) with (atan a) by field. symmetry. apply tan_atan.
Qed.
Lemma half_turns : forall th, cos (th / 2) <> 0 -> turns (2 * atan (tan (th / 2))) th.
Proof.
  intros th C. set (a := tan (th / 2)).
  assert (S2 : sin (th / 2) = a * cos (th / 2)) by (unfold a, tan; field; exact C).
  pose proof (sin2_cos2 (th / 2)) as Q. unfold Rsqr in Q. rewrite S2 in Q.
  pose proof (one_sq a) as P.
  assert (K : cos (th / 2) * cos (th / 2) = / (1 + a ^ 2)).
  { apply (Rmult_eq_reg_l (1 + a ^ 2)); [|lra]. rewrite Rinv_r by lra.
    replace ((1 + a ^ 2) * (cos (th / 2) * cos (th / 2)))
      with (a * cos (th / 2) * (a * cos (th / 2)) + cos (th / 2) * cos (th / 2)) by ring. exact Q. }
  apply cos_sin_turns.
  - rewrite cos_2atan. replace (cos th) with (cos (2 * (th / 2))) by (f_equal; field). rewrite cos_2a.
    fold a. rewrite S2. replace (cos (th / 2) * cos (th / 2) - a * cos (th / 2) * (a * cos (th / 2)))
      with ((1 - a ^ 2) * (cos (th / 2) * cos (th / 2))) by ring.
    rewrite K. field. lra.
  - rewrite sin_2atan. replace (sin th) with (sin (2 * (th / 2))) by (f_equal; field). rewrite sin_2a, S2.
    replace (2 * (a * cos (th / 2)) * cos (th / 2)) with (2 * a * (cos (th / 2) * cos (th / 2))) by ring.
    rewrite K. field. lra.
Qed.
Lemma rate_iff : forall T tg dtg w, 0 < T -> (dtg = T * (1/2 * w * (1 + tg ^ 2)) <-> 2 * (dtg / T) / (1 + tg ^ 2) = w).
Proof.
  intros T tg dtg w H. pose proof (one_sq tg). split; intros E; [rewrite E|rewrite <- E]; field; lra.
Qed.
Lemma speed_iff : forall tg v V, (v = V / (1 + tg ^ 2) <-> v * (1 + tg ^ 2) = V).
Proof.
  intros tg v V. pose proof (one_sq tg). split; intros E; [rewrite E|rewrite <- E]; field; lra.
Qed.

Lemma orient_init_ok : forall px py th vx vy w T env, 0 < T -> - PI < th < PI ->
  (holds env (map init_constraint (holonomicorient_init (px, py, th) (vx, vy, w) T)) <->
   holonomicorient_state (phys T (env 0%nat)) (phys T (env 1%nat)) (phys T (env 2%nat)) = [px; py; th] /\
   holonomicorient_input (phys T (env 0%nat)) (phys T (env 1%nat)) (phys T (env 2%nat)) = [vx; vy; w]).
Proof.
  intros px py th vx vy w T env H B. unfold holonomicorient_init, holonomicorient_state, holonomicorient_input. open_init.
  rewrite tgtheta_atan, tgdtheta_phys by exact H.
  rewrite !phys0, !phys1, !(eq_scaled T _ vx), !(eq_scaled T _ vy) by exact H. pose proof (holds_nil env). split.
  - intros (A1 & A2 & A3 & A4 & A5 & A6 & _). rewrite <- A3 in A6. apply rate_iff in A6; [|exact H].
    apply half_iff in A3; [|exact B]. rewrite A1, A2, A3, A4, A5, A6. auto.
  - intros [A C]. injection A as A1 A2 A3. injection C as C1 C2 C3.
    apply half_iff in A3; [|exact B]. apply rate_iff in C3; [|exact H]. rewrite A3 in C3. auto 10.
Qed.
Lemma orient_term_ok : forall px py th T env tol, 0 < T -> - PI < th < PI -> 0 <= tol ->
  holds env (map term_constraint (holonomicorient_term (px, py, th))) ->
  arrived tol (vsub (holonomicorient_state (phys T (env 0%nat)) (phys T (env 1%nat)) (phys T (env 2%nat))) [px; py; th])
    (holonomicorient_input (phys T (env 0%nat)) (phys T (env 1%nat)) (phys T (env 2%nat))) = true.
Proof.
  intros px py th T env tol P B TP H. unfold holonomicorient_term in H. revert H. open_init.
  intros (A1 & A2 & A3 & A4 & A5 & A6 & _). unfold holonomicorient_state, holonomicorient_input, vsub. cbn [combine map fst snd].
  rewrite tgtheta_atan, tgdtheta_phys by exact P.
  rewrite !phys0, !phys1. apply half_iff in A3; [|exact B]. rewrite A1, A2, A3, A4, A5, A6.
  pose proof (one_sq (env 2%nat 0%nat)).
  apply arrived_zero; [exact TP| |]; zeros; field; lra.
Qed.

(** ** Dubins *)
Lemma dubins_init_ok : forall th V w T env, 0 < T -> - PI < th < PI ->
  (holds env (map init_constraint (dubins_init th V w T)) <->
   tgtheta (phys T (env 1%nat)) = th /\ dubins_input (phys T (env 0%nat)) (phys T (env 1%nat)) = [V; w]).
Proof.
  intros th V w T env H B. unfold dubins_init, dubins_input, til_V. open_init.
  rewrite tgtheta_atan, tgdtheta_phys by exact H. rewrite !phys0. pose proof (holds_nil env). split.
  - intros (A1 & A2 & A3 & _). rewrite <- A2 in A1, A3. apply rate_iff in A3; [|exact H]. apply speed_iff in A1.
    apply half_iff in A2; [|exact B]. rewrite A1, A2, A3. auto.
  - intros [A C]. injection C as C1 C2. apply half_iff in A; [|exact B]. rewrite <- A.
    rewrite rate_iff, speed_iff by exact H. auto.
Qed.
Lemma dubins_init_turns : forall th V w T env, 0 < T -> cos (th / 2) <> 0 ->
  holds env (map init_constraint (dubins_init th V w T)) ->
  turns (tgtheta (phys T (env 1%nat))) th /\ dubins_input (phys T (env 0%nat)) (phys T (env 1%nat)) = [V; w].
Proof.
  intros th V w T env H C. unfold dubins_init, dubins_input, til_V. open_init.
  rewrite tgtheta_atan, tgdtheta_phys by exact H. rewrite !phys0.
  intros (A1 & A2 & A3 & _). rewrite <- A2 in A1, A3. apply rate_iff in A3; [|exact H]. apply speed_iff in A1.
  rewrite A1, A3. split; [|reflexivity]. rewrite A2. apply half_turns; exact C.
Qed.
Lemma dubins_term_ok : forall px py th T env tol, 0 < T -> - PI < th < PI -> 0 <= tol ->
  holds env (map term_constraint (dubins_term (px, py, th))) ->
  arrived tol (vsub [env 2%nat 0%nat; env 3%nat 0%nat; tgtheta (phys T (env 1%nat))] [px; py; th])
    (dubins_input (phys T (env 0%nat)) (phys T (env 1%nat))) = true.
Proof.
  intros px py th T env tol P B TP H. unfold dubins_term in H. revert H. open_init.
  intros (A1 & A2 & A3 & A4 & A5 & _). unfold dubins_input, til_V, vsub. cbn [combine map fst snd].
  rewrite tgtheta_atan, tgdtheta_phys by exact P.
  rewrite !phys0. apply half_iff in A3; [|exact B]. rewrite A1, A2, A3, A4, A5.
  pose proof (one_sq (env 1%nat 0%nat)).
  apply arrived_zero; [exact TP| |]; zeros; field; lra.
Qed.

(** ** Bicycle, AGV *)
Section Steer.
Variables sgn L : R.
Hypothesis SG : sgn = 1 \/ sgn = -1.
Hypothesis LP : 0 < L.
Lemma sgn2' : sgn * sgn = 1.
Proof. destruct SG as [-> | ->]; ring. Qed.
Lemma bicycle_init_ok : forall th delta V T env, 0 < T -> - PI < th < PI -> - (PI/2) < delta < PI/2 ->
  1/10000 < V / (1 + tan (th / 2) ^ 2) ->
  (holds env (map init_constraint (bicycle_init sgn L th delta V T)) <->
   tgtheta (phys T (env 1%nat)) = th /\ til_V (phys T (env 0%nat)) (phys T (env 1%nat)) = V /\
   steer_angle sgn L (phys T (env 0%nat)) (phys T (env 1%nat)) = delta).
Proof.
  intros th delta V T env H B D F. unfold bicycle_init. rewrite small_false by exact F. unfold til_V. open_init.
  rewrite tgtheta_atan. rewrite !phys0. pose proof (holds_nil env) as HN.
  pose proof (one_sq (tan (th / 2))) as P.
  assert (KEY : env 0%nat 0%nat = V / (1 + tan (th / 2) ^ 2) -> env 1%nat 0%nat = tan (th / 2) ->
     (env 1%nat 1%nat = T * (sgn * tan delta * (V / (1 + tan (th / 2) ^ 2)) * (1 + tan (th / 2) ^ 2) ^ 2 / (2 * L)) <->
      steer_angle sgn L (phys T (env 0%nat)) (phys T (env 1%nat)) = delta)).
  { intros E0 E1. rewrite angle_atan by (rewrite phys0, E0; lra).
    unfold num, den. rewrite !phys0, !phys1, E0, E1.
    set (q := V / (1 + tan (th / 2) ^ 2)) in *. set (r := (1 + tan (th / 2) ^ 2)) in *.
    assert (RP : 0 < r ^ 2) by (apply pow_lt; exact P).
    assert (QR : q * r ^ 2 <> 0) by (apply Rmult_integral_contrapositive_currified; lra).
    split; intros E.
    - rewrite E. replace (sgn * 2 * (T * (sgn * tan delta * q * r ^ 2 / (2 * L)) / T) * L / (q * r ^ 2))
        with ((sgn * sgn) * tan delta) by (field; repeat split; lra).
      rewrite sgn2', Rmult_1_l. apply atan_tan; exact D.
    - assert (TD : tan delta = sgn * 2 * (env 1%nat 1%nat / T) * L / (q * r ^ 2)) by (rewrite <- E; apply tan_atan).
      rewrite TD. transitivity ((sgn * sgn) * env 1%nat 1%nat); [rewrite sgn2'; ring|].
      field. repeat split; lra. }
  split.
  - intros (_ & A1 & A2 & A3 & _). pose proof (proj1 (KEY A1 A2) A3) as K.
    rewrite <- A2 in A1. apply speed_iff in A1. apply half_iff in A2; [|exact B]. auto.
  - intros (A & C & K). apply half_iff in A; [|exact B]. rewrite A in C. apply speed_iff in C.
    split; [ring|]. split; [exact C|]. split; [exact A|]. split; [apply KEY; assumption|exact HN].
Qed.
(** a slow start is planned as a standstill with the measured steering angle *)
Lemma bicycle_init_slow : forall th delta V T env, 0 < T -> - PI < th < PI -> - (PI/2) < delta < PI/2 ->
  V / (1 + tan (th / 2) ^ 2) <= 1/10000 -> 0 < env 0%nat 1%nat ->
  (holds env (map init_constraint (bicycle_init sgn L th delta V T)) <->
   tgtheta (phys T (env 1%nat)) = th /\ env 0%nat 0%nat = 0 /\ env 1%nat 1%nat = 0 /\
   steer_hop sgn L (phys T (env 0%nat)) (phys T (env 1%nat)) = delta).
Proof.
  intros th delta V T env H B D F VP. unfold bicycle_init. rewrite small_true by exact F. open_init.
  rewrite tgtheta_atan, phys0. pose proof (holds_nil env) as HN.
  pose proof (one_sq (tan (th / 2))) as P.
  set (r := (1 + tan (th / 2) ^ 2)) in *.
  assert (RP : 0 < r ^ 2) by (apply pow_lt; exact P).
  assert (KEY : env 1%nat 0%nat = tan (th / 2) ->
    (1 * (sgn * 2 * env 1%nat 2%nat * L - tan delta * (env 0%nat 1%nat * r ^ 2) * T) = 0 <->
     steer_hop sgn L (phys T (env 0%nat)) (phys T (env 1%nat)) = delta)).
  { intros E1. unfold steer_hop, atan2. rewrite !phys0, !phys1, !phys2, E1. fold r.
    assert (DP : 0 < env 0%nat 1%nat / T * r ^ 2).
    { apply Rmult_lt_0_compat; [|exact RP]. apply Rmult_lt_0_compat; [exact VP|apply Rinv_0_lt_compat; exact H]. }
    destruct (Rlt_dec 0 (env 0%nat 1%nat / T * r ^ 2)) as [_|N]; [|contradiction].
    replace (sgn * 2 * (env 1%nat 2%nat / T ^ 2) * L / (env 0%nat 1%nat / T * r ^ 2))
      with (sgn * 2 * env 1%nat 2%nat * L / (env 0%nat 1%nat * r ^ 2 * T)) by (field; repeat split; lra).
    set (c := env 0%nat 1%nat * r ^ 2 * T).
    assert (CP : 0 < c) by (unfold c; apply Rmult_lt_0_compat; [apply Rmult_lt_0_compat|]; assumption).
    split; intros E.
    - replace (sgn * 2 * env 1%nat 2%nat * L) with (tan delta * c) by (unfold c; lra).
      replace (tan delta * c / c) with (tan delta) by (field; lra). apply atan_tan; exact D.
    - assert (TD : tan delta = sgn * 2 * env 1%nat 2%nat * L / c) by (rewrite <- E; apply tan_atan).
      rewrite TD. replace (env 0%nat 1%nat * r ^ 2) with (c / T) by (unfold c; field; lra). field. lra. }
  split.
  - intros (A0 & A1 & A2 & A3 & _). pose proof (proj1 (KEY A2) A0) as K.
    apply half_iff in A2; [|exact B]. rewrite Rmult_0_r in A3. auto.
  - intros (A & C & E & K). apply half_iff in A; [|exact B].
    split; [apply KEY; assumption|]. rewrite Rmult_0_r. auto.
Qed.
(** the speed of a slow start is lost *)
Lemma bicycle_init_loses_speed : exists th V, - PI < th < PI /\ 1/100 <= V /\
  forall delta T env, 0 < T -> holds env (map init_constraint (bicycle_init sgn L th delta V T)) ->
    til_V (phys T (env 0%nat)) (phys T (env 1%nat)) = 0.
Proof.
  exists (2 * atan 10), (1/100). pose proof (atan_bound 10) as AB. pose proof PI_RGT_0.
  split; [lra|]. split; [lra|]. intros delta T env HT. unfold bicycle_init.
  rewrite small_true.
  - open_init. intros (_ & A & _). unfold til_V. rewrite !phys0, A. ring.
  - replace (2 * atan 10 / 2) with (atan 10) by field. rewrite tan_atan. lra.
Qed.
Lemma bicycle_term_pose : forall px py th T env, 0 < T -> - PI < th < PI ->
  holds env (map term_constraint (bicycle_term (px, py, th) T)) ->
  [env 2%nat 0%nat; env 3%nat 0%nat; tgtheta (phys T (env 1%nat))] = [px; py; th] /\
  til_V (phys T (env 0%nat)) (phys T (env 1%nat)) = 0 /\
  phys T (env 0%nat) 0 = 0 /\ phys T (env 1%nat) 1 = 0.
Proof.
  intros px py th T env P B H. unfold bicycle_term in H. revert H. open_init.
  intros (A1 & A2 & A3 & A4 & A5 & _). unfold til_V. rewrite tgtheta_atan, !phys0, phys1.
  apply half_iff in A3; [|exact B]. rewrite A1, A2, A3, A4, A5. repeat split; try ring. field. lra.
Qed.
End Steer.

(** ** fleet centre *)
Lemma center_ok : forall cx cy r0 r1 env,
  let tg := env 1%nat in let th := tgtheta tg in
  (holds env (dubins_center_constraints cx cy r0 r1) <->
   Rabs (env 2%nat 0%nat + (r0 * cos th - r1 * sin th) - cx) <= 1/100 / (1 + tg 0%nat ^ 2) /\
   Rabs (env 3%nat 0%nat + (r0 * sin th + r1 * cos th) - cy) <= 1/100 / (1 + tg 0%nat ^ 2)).
Proof.
  intros cx cy r0 r1 env tg th. unfold dubins_center_constraints, th. rewrite tgtheta_atan, cos_2atan, sin_2atan.
  rewrite !holds_cons. unfold holds1; cbn [clo chi cexpr sval]. fold tg.
  set (a := tg 0%nat). set (x := env 2%nat 0%nat). set (y := env 3%nat 0%nat). pose proof (one_sq a) as P.
  assert (EX : x + (r0 * ((1 - a ^ 2) / (1 + a ^ 2)) - r1 * (2 * a / (1 + a ^ 2))) - cx
             = ((x - cx) * (1 + a ^ 2) - r1 * 2 * a + r0 * (1 - a ^ 2)) / (1 + a ^ 2)) by (field; lra).
  assert (EY : y + (r0 * (2 * a / (1 + a ^ 2)) + r1 * ((1 - a ^ 2) / (1 + a ^ 2))) - cy
             = ((y - cy) * (1 + a ^ 2) + r0 * 2 * a + r1 * (1 - a ^ 2)) / (1 + a ^ 2)) by (field; lra).
  rewrite EX, EY.
  assert (K : forall u, Rabs (u / (1 + a ^ 2)) <= 1/100 / (1 + a ^ 2) <-> - (1/100) <= u <= 1/100).
  { intros u. unfold Rdiv at 1. rewrite Rabs_mult, Rabs_inv, (Rabs_right (1 + a ^ 2)) by lra.
    split; intros G.
    - assert (Rabs u <= 1/100).
      { apply (Rmult_le_reg_r (/ (1 + a ^ 2))); [apply Rinv_0_lt_compat; exact P|]. exact G. }
      unfold Rabs in *. destruct (Rcase_abs u); lra.
    - apply Rmult_le_compat_r; [left; apply Rinv_0_lt_compat; exact P|].
      unfold Rabs. destruct (Rcase_abs u); lra. }
  rewrite !K. pose proof (holds_nil env). tauto.
Qed.
Lemma logged_quarter : forall x y r0 r1 tg,
  let th := tgtheta tg in let ox := r0 * cos th - r1 * sin th in let oy := r0 * sin th + r1 * cos th in
  dubins_logged_center x y (tg 0%nat) r0 r1
  = (x + (cos (- (PI/2)) * ox - sin (- (PI/2)) * oy), y + (sin (- (PI/2)) * ox + cos (- (PI/2)) * oy)).
Proof.
  intros x y r0 r1 tg th ox oy. unfold ox, oy, th. rewrite tgtheta_atan, cos_2atan, sin_2atan.
  rewrite cos_neg, sin_neg, cos_PI2, sin_PI2. unfold dubins_logged_center.
  pose proof (one_sq (tg 0%nat)). apply f_equal2; field; lra.
Qed.
Lemma logged_coincide : forall x y r0 r1 tg,
  let th := tgtheta tg in
  (dubins_logged_center x y (tg 0%nat) r0 r1 = (x + (r0 * cos th - r1 * sin th), y + (r0 * sin th + r1 * cos th)) <->
   r0 = 0 /\ r1 = 0).
Proof.
  intros x y r0 r1 tg th. pose proof (logged_quarter x y r0 r1 tg) as Q. cbv zeta in Q. fold th in Q.
  rewrite cos_neg, sin_neg, cos_PI2, sin_PI2 in Q. rewrite Q. split.
  - intros E. injection E as E1 E2.
    pose proof (sin2_cos2 th) as SC. unfold Rsqr in SC.
    set (ox := r0 * cos th - r1 * sin th) in *. set (oy := r0 * sin th + r1 * cos th) in *.
    assert (O1 : ox = 0) by lra. assert (O2 : oy = 0) by lra.
    assert (R0 : r0 = ox * cos th + oy * sin th).
    { unfold ox, oy. transitivity (r0 * (sin th * sin th + cos th * cos th)); [rewrite SC; ring|ring]. }
    assert (R1 : r1 = oy * cos th - ox * sin th).
    { unfold ox, oy. transitivity (r1 * (sin th * sin th + cos th * cos th)); [rewrite SC; ring|ring]. }
    rewrite O1, O2 in R0, R1. lra.
  - intros [-> ->]. apply f_equal2; ring.
Qed.

(** ** trailer *)
Lemma trailer_hitch : forall lo hi l (s : nat -> R -> R) (input : R -> list R), l <> 0 ->
  (forall t, lo <= t <= hi ->
     moves lo hi [s 0%nat; s 1%nat; s 2%nat; s 3%nat; s 4%nat; s 5%nat] t
       (trailer_ode l [s 0%nat t; s 1%nat t; s 2%nat t; s 3%nat t; s 4%nat t; s 5%nat t] (input t))) ->
  forall t u, lo <= t <= hi -> lo <= u <= hi ->
    s 3%nat t - s 0%nat t - l * cos (s 2%nat t) = s 3%nat u - s 0%nat u - l * cos (s 2%nat u) /\
    s 4%nat t - s 1%nat t - l * sin (s 2%nat t) = s 4%nat u - s 1%nat u - l * sin (s 2%nat u).
Proof.
  intros lo hi l s input N M t u Ht Hu.
  assert (D : forall w, lo <= w <= hi ->
    deriv_in lo hi (fun z => s 3%nat z - s 0%nat z - l * cos (s 2%nat z)) w 0 /\
    deriv_in lo hi (fun z => s 4%nat z - s 1%nat z - l * sin (s 2%nat z)) w 0).
  { intros w W. specialize (M w W). unfold moves, trailer_ode in M. cbn [nth app dubins_ode] in M.
    set (dth := nth 0 (input w) 0 / l * sin (s 5%nat w - s 2%nat w)) in *.
    inversion M as [|? ? ? ? M0 M']; subst. inversion M' as [|? ? ? ? M1 M'']; subst.
    inversion M'' as [|? ? ? ? M2 M3]; subst. inversion M3 as [|? ? ? ? M4 M5]; subst.
    inversion M5 as [|? ? ? ? M6 M7]; subst.
    split.
    - eapply deriv_eq.
      + apply (deriv_minus lo hi w W (fun z => s 3%nat z - s 0%nat z) (fun z => l * cos (s 2%nat z))).
        * apply (deriv_minus lo hi w W (s 3%nat) (s 0%nat)); eassumption.
        * apply (deriv_scal lo hi w W (fun z => cos (s 2%nat z))).
          apply (deriv_comp lo hi w W (s 2%nat) cos); [eassumption|apply derivable_pt_lim_cos].
      + ring.
    - eapply deriv_eq.
      + apply (deriv_minus lo hi w W (fun z => s 4%nat z - s 1%nat z) (fun z => l * sin (s 2%nat z))).
        * apply (deriv_minus lo hi w W (s 4%nat) (s 1%nat)); eassumption.
        * apply (deriv_scal lo hi w W (fun z => sin (s 2%nat z))).
          apply (deriv_comp lo hi w W (s 2%nat) sin); [eassumption|apply derivable_pt_lim_sin].
      + ring. }
  split.
  - apply (deriv_zero_const lo hi (fun z => s 3%nat z - s 0%nat z - l * cos (s 2%nat z))); try assumption.
    intros w W. apply D; exact W.
  - apply (deriv_zero_const lo hi (fun z => s 4%nat z - s 1%nat z - l * sin (s 2%nat z))); try assumption.
    intros w W. apply D; exact W.
Qed.
(** so a trailer that starts hitched stays at distance |l| of the vehicle *)
Lemma trailer_stays : forall lo hi l (s : nat -> R -> R) (input : R -> list R), l <> 0 ->
  (forall t, lo <= t <= hi ->
     moves lo hi [s 0%nat; s 1%nat; s 2%nat; s 3%nat; s 4%nat; s 5%nat] t
       (trailer_ode l [s 0%nat t; s 1%nat t; s 2%nat t; s 3%nat t; s 4%nat t; s 5%nat t] (input t))) ->
  forall t0, lo <= t0 <= hi ->
  s 0%nat t0 = s 3%nat t0 - l * cos (s 2%nat t0) -> s 1%nat t0 = s 4%nat t0 - l * sin (s 2%nat t0) ->
  forall t, lo <= t <= hi ->
    s 0%nat t = s 3%nat t - l * cos (s 2%nat t) /\ s 1%nat t = s 4%nat t - l * sin (s 2%nat t) /\
    sqrt ((s 3%nat t - s 0%nat t) ^ 2 + (s 4%nat t - s 1%nat t) ^ 2) = Rabs l.
Proof.
  intros lo hi l s input N M t0 H0 E1 E2 t Ht.
  destruct (trailer_hitch lo hi l s input N M t t0 Ht H0) as [A B].
  assert (A' : s 0%nat t = s 3%nat t - l * cos (s 2%nat t)) by lra.
  assert (B' : s 1%nat t = s 4%nat t - l * sin (s 2%nat t)) by lra.
  split; [exact A'|]. split; [exact B'|]. rewrite A', B'.
  pose proof (sin2_cos2 (s 2%nat t)) as SC. unfold Rsqr in SC.
  replace ((s 3%nat t - (s 3%nat t - l * cos (s 2%nat t))) ^ 2 + (s 4%nat t - (s 4%nat t - l * sin (s 2%nat t))) ^ 2)
    with (l ^ 2 * (sin (s 2%nat t) * sin (s 2%nat t) + cos (s 2%nat t) * cos (s 2%nat t))) by ring.
  rewrite SC, Rmult_1_r. replace (l ^ 2) with (l²) by (unfold Rsqr; ring). apply sqrt_Rsqr_abs.
Qed.
(** the relaxed constraint on the trailer's turning rate *)
Lemma trailer_pull : forall l tmin tmax T env, 0 < T ->
  let tr := phys T (env 0%nat) in let tv := phys T (env 2%nat) in
  holds env (trailer_own l tmin tmax T) ->
  Rabs (l * tgdtheta tr - til_V (phys T (env 1%nat)) tv * sin (tgtheta tv - tgtheta tr))
    <= 1/1000 / (1 + tr 0%nat ^ 2).
Proof.
  intros l tmin tmax T env P tr tv H. unfold trailer_own in H. revert H. open_holds.
  intros (A & B & _).
  unfold tr, tv. rewrite !tgtheta_atan, tgdtheta_phys by exact P. unfold til_V. rewrite !phys0.
  set (a := env 0%nat 0%nat) in *. set (b := env 2%nat 0%nat) in *. set (v := env 1%nat 0%nat) in *.
  set (d := env 0%nat 1%nat) in *.
  rewrite sin_minus, !cos_2atan, !sin_2atan.
  pose proof (one_sq a) as PA. pose proof (one_sq b) as PB.
  set (u := 2 * d * l - T * v * (2 * b * (1 - a ^ 2) - (1 - b ^ 2) * 2 * a)) in *.
  replace (l * (2 * (d / T) / (1 + a ^ 2)) - v * (1 + b ^ 2) * (2 * b / (1 + b ^ 2) * ((1 - a ^ 2) / (1 + a ^ 2)) -
      (1 - b ^ 2) / (1 + b ^ 2) * (2 * a / (1 + a ^ 2)))) with (u / (T * (1 + a ^ 2))) by (unfold u; field; lra).
  assert (Q : 0 < T * (1 + a ^ 2)) by (apply Rmult_lt_0_compat; assumption).
  unfold Rdiv at 1. rewrite Rabs_mult, Rabs_inv, (Rabs_right (T * (1 + a ^ 2))) by lra.
  replace (1/1000 / (1 + a ^ 2)) with (T * (1/1000) * / (T * (1 + a ^ 2))) by (field; lra).
  apply Rmult_le_compat_r; [left; apply Rinv_0_lt_compat; exact Q|].
  unfold Rabs. destruct (Rcase_abs u); unfold u in *; lra.
Qed.
(** the logged trailer state is hitched, and its ODE holds where the rate is exact *)
Lemma trailer_state_moves : forall lo hi l (v tv tr : R -> jet) x y t, lo <= t <= hi -> l <> 0 ->
  smooth lo hi tv 0 -> smooth lo hi tr 0 ->
  deriv_in lo hi x t (til_dx (v t 0%nat) (tv t 0%nat)) -> deriv_in lo hi y t (til_dy (v t 0%nat) (tv t 0%nat)) ->
  l * tgdtheta (tr t) = til_V (v t) (tv t) * sin (tgtheta (tv t) - tgtheta (tr t)) ->
  moves lo hi [(fun u => nth 0 (trailer_state l (x u) (y u) (tr u)) 0);
               (fun u => nth 1 (trailer_state l (x u) (y u) (tr u)) 0);
               (fun u => nth 2 (trailer_state l (x u) (y u) (tr u)) 0); x; y; (fun u => tgtheta (tv u))] t
    (trailer_ode l (trailer_state l (x t) (y t) (tr t) ++ [x t; y t; tgtheta (tv t)]) (dubins_input (v t) (tv t))).
Proof.
  intros lo hi l v tv tr x y t H N S1 S2 X Y E.
  unfold moves, trailer_ode, trailer_state, dubins_ode, dubins_input. cbn [nth app].
  assert (W : til_V (v t) (tv t) / l * sin (tgtheta (tv t) - tgtheta (tr t)) = tgdtheta (tr t)).
  { apply (Rmult_eq_reg_l l); [|exact N]. rewrite E. field. exact N. }
  rewrite W, <- til_dx_cos, <- til_dy_sin.
  pose proof (theta_deriv lo hi tr t H S2) as TH.
  constructor; [|constructor; [|constructor; [|constructor; [|constructor; [|constructor; [|constructor]]]]]].
  - eapply deriv_eq.
    + apply (deriv_minus lo hi t H x (fun u => l * cos (tgtheta (tr u)))); [exact X|].
      apply (deriv_scal lo hi t H (fun u => cos (tgtheta (tr u)))).
      apply (deriv_comp lo hi t H (fun u => tgtheta (tr u)) cos); [exact TH|apply derivable_pt_lim_cos].
    + ring.
  - eapply deriv_eq.
    + apply (deriv_minus lo hi t H y (fun u => l * sin (tgtheta (tr u)))); [exact Y|].
      apply (deriv_scal lo hi t H (fun u => sin (tgtheta (tr u)))).
      apply (deriv_comp lo hi t H (fun u => tgtheta (tr u)) sin); [exact TH|apply derivable_pt_lim_sin].
    + ring.
  - exact TH.
  - exact X.
  - exact Y.
  - apply theta_deriv; assumption.
Qed.

(** angle limit *)
Lemma tan_diff : forall a b, 0 <= a * b -> tan (atan a - atan b) = (a - b) / (1 + a * b) /\
  - (PI/2) < atan a - atan b < PI/2.
Proof.
  intros a b H. pose proof (atan_bound a) as A. pose proof (atan_bound b) as B.
  assert (SGN : (0 <= a /\ 0 <= b) \/ (a <= 0 /\ b <= 0)).
  { destruct (Rle_dec 0 a) as [P|P].
    - destruct (Rle_dec 0 b) as [Q|Q]; [left; auto|].
      destruct (Req_dec a 0) as [Z|Z]; [right; lra|].
      assert (0 < a * - b) by (apply Rmult_lt_0_compat; lra). lra.
    - destruct (Rle_dec b 0) as [Q|Q]; [right; lra|].
      assert (0 < - a * b) by (apply Rmult_lt_0_compat; lra). lra. }
  assert (MON : forall u v, u <= v -> atan u <= atan v).
  { intros u v [L|E]; [left; apply atan_increasing; exact L|rewrite E; lra]. }
  assert (RNG : - (PI/2) < atan a - atan b < PI/2).
  { destruct SGN as [[P Q]|[P Q]].
    - pose proof (MON 0 a P). pose proof (MON 0 b Q). rewrite atan_0 in *. lra.
    - pose proof (MON a 0 P). pose proof (MON b 0 Q). rewrite atan_0 in *. lra. }
  split; [|exact RNG].
  rewrite tan_minus.
  - rewrite !tan_atan. reflexivity.
  - pose proof (cos_gt_0 (atan a) ltac:(lra) ltac:(lra)). lra.
  - pose proof (cos_gt_0 (atan b) ltac:(lra) ltac:(lra)). lra.
  - pose proof (cos_gt_0 (atan a - atan b) ltac:(lra) ltac:(lra)). lra.
  - rewrite !tan_atan. lra.
Qed.
Lemma atan_upper : forall x d, - (PI/2) < x < PI/2 -> - (PI/2) < d < PI/2 -> tan x <= tan d -> x <= d.
Proof.
  intros x d X D H. destruct (Rle_dec x d) as [G|G]; [exact G|exfalso].
  assert (tan d < tan x) by (apply tan_increasing; lra). lra.
Qed.
Lemma trailer_angle_same_side : forall l tmin tmax T env, 0 < T ->
  - PI < tmin <= 0 -> 0 <= tmax < PI ->
  holds env (trailer_own l tmin tmax T) -> 0 <= env 2%nat 0%nat * env 0%nat 0%nat ->
  tmin <= tgtheta (env 2%nat) - tgtheta (env 0%nat) <= tmax.
Proof.
  intros l tmin tmax T env P TM TX H SS. unfold trailer_own in H. revert H. open_holds.
  intros (_ & _ & A & B & _). rewrite !tgtheta_atan.
  set (b := env 2%nat 0%nat) in *. set (a := env 0%nat 0%nat) in *.
  destruct (tan_diff b a SS) as [E RG].
  assert (Q : 1 <= 1 + b * a) by lra.
  assert (NN : 0 < 1 + b * a) by lra.
  assert (T0 : 0 <= tan (tmax / 2)).
  { destruct (Req_dec tmax 0) as [Z|Z]; [rewrite Z; replace (0/2) with 0 by field; rewrite tan_0; lra|].
    left. apply tan_gt_0; lra. }
  assert (T1 : tan (tmin / 2) <= 0).
  { destruct (Req_dec tmin 0) as [Z|Z]; [rewrite Z; replace (0/2) with 0 by field; rewrite tan_0; lra|].
    left. apply tan_lt_0; lra. }
  assert (U : (b - a) / (1 + b * a) <= tan (tmax / 2)).
  { apply (Rmult_le_reg_r (1 + b * a)); [exact NN|]. replace ((b - a) / (1 + b * a) * (1 + b * a)) with (b - a) by (field; lra).
    assert (0 <= tan (tmax / 2) * (b * a)) by (apply Rmult_le_pos; assumption). lra. }
  assert (V : tan (tmin / 2) <= (b - a) / (1 + b * a)).
  { apply (Rmult_le_reg_r (1 + b * a)); [exact NN|]. replace ((b - a) / (1 + b * a) * (1 + b * a)) with (b - a) by (field; lra).
    assert (0 <= - tan (tmin / 2) * (b * a)) by (apply Rmult_le_pos; lra). lra. }
  rewrite <- E in U, V.
  apply atan_upper in U; [|exact RG|lra].
  apply atan_upper in V; [|lra|exact RG]. lra.
Qed.
Lemma tan_PI8 : tan (PI / 8) = sqrt 2 - 1.
Proof.
  pose proof PI_RGT_0. 
  assert (S2 : sqrt 2 * sqrt 2 = 2) by (apply sqrt_sqrt; lra).
  assert (SP : 0 < sqrt 2) by (apply sqrt_lt_R0; lra).
  assert (CP : 0 < cos (PI/8)) by (apply cos_gt_0; lra).
  assert (SS : 0 < sin (PI/8)) by (apply sin_gt_0; lra).
  pose proof (sin_2a (PI/8)) as A. pose proof (cos_2a (PI/8)) as B. pose proof (sin2_cos2 (PI/8)) as C. unfold Rsqr in C.
  replace (2 * (PI/8)) with (PI/4) in * by field. rewrite sin_PI4 in A. rewrite cos_PI4 in B.
  unfold tan. set (s := sin (PI/8)) in *. set (c := cos (PI/8)) in *.
  assert (I2 : 1 / sqrt 2 = sqrt 2 / 2) by (rewrite <- S2 at 3; field; lra).
  rewrite I2 in *.
  assert (C2 : 2 * (c * c) = 1 + sqrt 2 / 2) by lra.
  apply (Rmult_eq_reg_r (2 * (c * c))); [|assert (0 < c * c) by (apply Rmult_lt_0_compat; exact CP); lra].
  replace (s / c * (2 * (c * c))) with (2 * s * c) by (field; lra). rewrite <- A, C2.
  replace ((sqrt 2 - 1) * (1 + sqrt 2 / 2)) with (sqrt 2 / 2 + (sqrt 2 * sqrt 2 - 2) / 2) by field. rewrite S2. field.
Qed.
Lemma sqrt2_bounds : 1414/1000 < sqrt 2 < 1415/1000.
Proof.
  split.
  - rewrite <- (sqrt_square (1414/1000)) by lra. apply sqrt_lt_1; lra.
  - rewrite <- (sqrt_square (1415/1000)) by lra. apply sqrt_lt_1; lra.
Qed.
(** with half-angle tangents of opposite sign the limit is exceeded *)
Lemma trailer_angle_wrong : exists l tmin tmax T env, 0 < l /\ 0 < T /\ tmin = - (PI/4) /\ tmax = PI/4 /\
  holds env (trailer_own l tmin tmax T) /\ tmax < tgtheta (env 2%nat) - tgtheta (env 0%nat).
Proof.
  pose proof PI_RGT_0. pose proof sqrt2_bounds as SB. pose proof tan_PI8 as T8.
  set (env := fun i o : nat => match i, o with O, O => -(1/5) | 2%nat, O => 1/5 | _, _ => 0 end).
  exists (1/5), (- (PI/4)), (PI/4), 1, env. split; [lra|]. split; [lra|]. split; [reflexivity|]. split; [reflexivity|].
  split.
  - unfold trailer_own. open_holds. unfold env; cbn [Nat.add].
    replace (- (PI / 4) / 2) with (- (PI/8)) by field. replace (PI / 4 / 2) with (PI/8) by field. rewrite tan_neg, T8.
    do 4 (split; [lra|]). apply holds_nil.
  - rewrite !tgtheta_atan. unfold env. rewrite atan_opp.
    assert (K : PI / 8 < 2 * atan (1/5)); [|lra].
    destruct (Rlt_dec (PI/8) (2 * atan (1/5))) as [G|G]; [exact G|exfalso].
    pose proof (atan_bound (1/5)). assert (A0 : 0 < atan (1/5)) by (rewrite <- atan_0; apply atan_increasing; lra).
    assert (TT : tan (2 * atan (1/5)) = 5/12).
    { unfold tan. rewrite sin_2atan, cos_2atan. field. }
    assert (tan (2 * atan (1/5)) <= tan (PI/8)).
    { destruct (Req_dec (2 * atan (1/5)) (PI/8)) as [Z|Z]; [rewrite Z; lra|]. left. apply tan_increasing; lra. }
    rewrite TT, T8 in *. lra.
Qed.
(** and pairs within the limit are excluded *)
Lemma trailer_angle_strict : exists l tmin tmax T env, 0 < l /\ 0 < T /\ tmin = - (PI/4) /\ tmax = PI/4 /\
  tmin <= tgtheta (env 2%nat) - tgtheta (env 0%nat) <= tmax /\ ~ holds env (trailer_own l tmin tmax T).
Proof.
  pose proof PI_RGT_0. pose proof sqrt2_bounds as SB. pose proof tan_PI8 as T8.
  set (env := fun i o : nat => match i, o with O, O => 1 | 2%nat, O => 2 | _, _ => 0 end).
  exists (1/5), (- (PI/4)), (PI/4), 1, env. split; [lra|]. split; [lra|]. split; [reflexivity|]. split; [reflexivity|].
  split.
  - rewrite !tgtheta_atan. unfold env.
    destruct (tan_diff 2 1 ltac:(lra)) as [E RG].
    assert (U : atan 2 - atan 1 <= PI/8).
    { apply atan_upper; [exact RG|lra|]. rewrite E, T8. lra. }
    assert (atan 1 < atan 2) by (apply atan_increasing; lra). lra.
  - unfold trailer_own. open_holds. unfold env; cbn [Nat.add].
    replace (PI / 4 / 2) with (PI/8) by field. rewrite T8. intros (_ & _ & K & _). lra.
Qed.
(** the predicted state of a fresh trailer is not hitched *)
Lemma trailer_fresh_unhitched : exists l th xv yv thv, 0 < l /\
  let s := trailer_set_initial th [xv; yv; thv] in
  sqrt ((nth 3 s 0 - nth 0 s 0) ^ 2 + (nth 4 s 0 - nth 1 s 0) ^ 2) <> l.
Proof.
  exists (1/5), 0, 3, 4, 0. split; [lra|]. cbn [trailer_set_initial app nth]. cbv zeta.
  replace ((3 - 0) ^ 2 + (4 - 0) ^ 2) with (5 ^ 2) by ring. rewrite sqrt_pow2 by lra. lra.
Qed.
(** start constraints of the trailer: only the angle is imposed *)
Lemma trailer_init_ok : forall l tht thv V w T env, 0 < T -> - PI < tht < PI -> - PI < thv < PI ->
  (holds env (map init_constraint (trailer_init l tht thv V w T)) <->
   tgtheta (phys T (env 0%nat)) = tht /\ tgtheta (phys T (env 2%nat)) = thv /\
   dubins_input (phys T (env 1%nat)) (phys T (env 2%nat)) = [V; w]).
Proof.
  intros l tht thv V w T env H B1 B2.
  unfold trailer_init, dubins_init, dubins_input, til_V. cbn [map shift Nat.add].
  rewrite ?holds_cons, ?holds_init.
  assert (Q : forall d e, holds1 env (init_constraint [SV 0 0; SN (tan (tht / 2)); d; e]) <-> env 0%nat 0%nat = tan (tht/2)).
  { intros d e. unfold holds1, init_constraint; cbn. lra. }
  rewrite Q. cbn [sval].
  rewrite !tgtheta_atan, tgdtheta_phys by exact H. rewrite !phys0. pose proof (holds_nil env). split.
  - intros (A0 & A1 & A2 & A3 & _). rewrite <- A2 in A1, A3. apply rate_iff in A3; [|exact H]. apply speed_iff in A1.
    apply half_iff in A2; [|exact B2]. apply half_iff in A0; [|exact B1]. rewrite A0, A1, A2, A3. auto.
  - intros (A0 & A & C). injection C as C1 C2. apply half_iff in A; [|exact B2]. apply half_iff in A0; [|exact B1]. rewrite <- A.
    rewrite rate_iff, speed_iff by exact H. auto.
Qed.
