(** Quadrotors: flatness, limits, start and end constraints. *)
From Coq Require Import Reals List Arith Bool Lia Lra Psatz.
From Verif Require Import Angle_Model Angle_Proofs Vehicle_Model Wheel_Model Quad_Model Vehicle_Spec
  Vehicle_Proofs Vehicle_Proofs2 Wheel_Proofs Wheel_Proofs2 Wheel_Proofs3.
Import ListNotations.
Open Scope R_scope.

(** ** derivative of arctan2 along a curve *)
Lemma deriv_local : forall lo hi f g t d r, 0 < r -> lo <= t <= hi ->
  (forall u, lo <= u <= hi -> Rabs (u - t) < r -> f u = g u) -> deriv_in lo hi f t d -> deriv_in lo hi g t d.
Proof.
  intros lo hi f g t d r R0 H E D eps P. destruct (D eps P) as (delta & Q & K).
  exists (Rmin delta r). split; [apply Rmin_pos; assumption|].
  intros h N S I. pose proof (Rmin_l delta r). pose proof (Rmin_r delta r).
  rewrite <- !E; [apply K; [exact N|lra|exact I]| | | |]; try assumption.
  - replace (t - t) with 0 by ring. rewrite Rabs_R0. exact R0.
  - replace (t + h - t) with h by ring. lra.
Qed.
Lemma deriv_cont : forall lo hi f t d, lo <= t <= hi -> deriv_in lo hi f t d ->
  forall eps, 0 < eps -> exists r, 0 < r /\ forall u, lo <= u <= hi -> Rabs (u - t) < r -> Rabs (f u - f t) < eps.
Proof.
  intros lo hi f t d H D eps P. destruct (D 1 Rlt_0_1) as (delta & Q & K).
  set (m := Rabs d + 1). assert (MP : 0 < m) by (pose proof (Rabs_pos d); unfold m; lra).
  assert (EM : 0 < eps / m) by (apply Rmult_lt_0_compat; [exact P|apply Rinv_0_lt_compat; exact MP]).
  exists (Rmin delta (eps / m)). split; [apply Rmin_pos; assumption|].
  intros u U A. pose proof (Rmin_l delta (eps / m)). pose proof (Rmin_r delta (eps / m)).
  destruct (Req_dec u t) as [Z|Z]; [rewrite Z; replace (f t - f t) with 0 by ring; rewrite Rabs_R0; exact P|].
  assert (N : u - t <> 0) by lra.
  specialize (K (u - t) N ltac:(lra)). replace (t + (u - t)) with u in K by ring. specialize (K U).
  set (q := (f u - f t) / (u - t)) in *.
  assert (QB : Rabs q < m).
  { unfold m. replace q with ((q - d) + d) by ring. eapply Rle_lt_trans; [apply Rabs_triang|]. lra. }
  replace (f u - f t) with (q * (u - t)) by (unfold q; field; exact N).
  rewrite Rabs_mult. replace eps with (m * (eps / m)) by (field; lra).
  apply Rmult_le_0_lt_compat; try apply Rabs_pos; [exact QB|lra].
Qed.
Lemma near_pos : forall lo hi f t d, lo <= t <= hi -> deriv_in lo hi f t d -> 0 < f t ->
  exists r, 0 < r /\ forall u, lo <= u <= hi -> Rabs (u - t) < r -> 0 < f u.
Proof.
  intros lo hi f t d H D P. destruct (deriv_cont lo hi f t d H D (f t) P) as (r & R0 & K).
  exists r. split; [exact R0|]. intros u U A. specialize (K u U A).
  revert K. unfold Rabs. destruct (Rcase_abs _); lra.
Qed.
Lemma atan2_up : forall y x, 0 < y -> atan2 y x = PI / 2 - atan (x / y).
Proof.
  intros y x H. unfold atan2. destruct (Rlt_dec 0 x) as [P|P].
  - rewrite <- atan_inv by (apply Rmult_lt_0_compat; [exact P|apply Rinv_0_lt_compat; exact H]).
    f_equal. field. lra.
  - destruct (Rlt_dec x 0) as [N|N].
    + destruct (Rle_dec 0 y); [|lra].
      replace (y / x) with (- (/ (- x / y))) by (field; lra).
      rewrite atan_opp, atan_inv by (apply Rmult_lt_0_compat; [lra|apply Rinv_0_lt_compat; exact H]).
      replace (- x / y) with (- (x / y)) by (field; lra). rewrite atan_opp. lra.
    + destruct (Rlt_dec 0 y); [|lra]. replace x with 0 by lra.
      replace (0 / y) with 0 by (field; lra). rewrite atan_0. ring.
Qed.
Lemma atan2_down : forall y x, y < 0 -> atan2 y x = - (PI / 2) - atan (x / y).
Proof.
  intros y x H. unfold atan2. destruct (Rlt_dec 0 x) as [P|P].
  - replace (y / x) with (- (/ (x / - y))) by (field; lra).
    rewrite atan_opp, atan_inv by (apply Rmult_lt_0_compat; [lra|apply Rinv_0_lt_compat; lra]).
    replace (x / - y) with (- (x / y)) by (field; lra). rewrite atan_opp. lra.
  - destruct (Rlt_dec x 0) as [N|N].
    + destruct (Rle_dec 0 y); [lra|].
      replace (x / y) with (- x / - y) by (field; lra).
      replace (y / x) with (/ (- x / - y)) by (field; lra).
      rewrite atan_inv; [lra|]. apply Rmult_lt_0_compat; [lra|apply Rinv_0_lt_compat; lra].
    + destruct (Rlt_dec 0 y); [lra|]. destruct (Rlt_dec y 0); [|lra]. replace x with 0 by lra.
      replace (0 / y) with 0 by (field; lra). rewrite atan_0. ring.
Qed.
Lemma atan2_right : forall y x, 0 < x -> atan2 y x = atan (y / x).
Proof. intros y x H. unfold atan2. destruct (Rlt_dec 0 x); [reflexivity|contradiction]. Qed.
Lemma sum_sq_pos : forall a b, a <> 0 \/ b <> 0 -> 0 < a ^ 2 + b ^ 2.
Proof.
  intros a b H. pose proof (pow2_ge_0 a). pose proof (pow2_ge_0 b).
  destruct H as [H|H].
  - assert (0 < a ^ 2) by (replace (a ^ 2) with (Rsqr a) by (unfold Rsqr; ring); apply Rsqr_pos_lt; exact H). lra.
  - assert (0 < b ^ 2) by (replace (b ^ 2) with (Rsqr b) by (unfold Rsqr; ring); apply Rsqr_pos_lt; exact H). lra.
Qed.
Lemma deriv_atan2 : forall lo hi t (f g : R -> R) d e, lo <= t <= hi -> 0 < g t \/ f t <> 0 ->
  deriv_in lo hi f t d -> deriv_in lo hi g t e ->
  deriv_in lo hi (fun u => atan2 (f u) (g u)) t ((d * g t - f t * e) / (g t ^ 2 + f t ^ 2)).
Proof.
  intros lo hi t f g d e H NZ F G.
  destruct (Rlt_dec 0 (g t)) as [P|P].
  - destruct (near_pos lo hi g t e H G P) as (r & R0 & K).
    apply (deriv_local lo hi (fun u => atan (f u / g u)) _ t _ r R0 H).
    + intros u U A. symmetry. apply atan2_right, K; assumption.
    + eapply deriv_eq.
      * apply (deriv_comp lo hi t H (fun u => f u / g u) atan); [|apply derivable_pt_lim_atan].
        apply deriv_div; [exact H|lra|exact F|exact G].
      * pose proof (sum_sq_pos (g t) (f t) ltac:(lra)). cbn beta. field. split; lra.
  - assert (NF : f t <> 0) by (destruct NZ; [contradiction|assumption]).
    assert (SQ : 0 < g t ^ 2 + f t ^ 2) by (apply sum_sq_pos; right; exact NF).
    destruct (Rlt_dec 0 (f t)) as [Q|Q].
    + destruct (near_pos lo hi f t d H F Q) as (r & R0 & K).
      apply (deriv_local lo hi (fun u => PI / 2 - atan (g u / f u)) _ t _ r R0 H).
      * intros u U A. symmetry. apply atan2_up, K; assumption.
      * eapply deriv_eq.
        -- apply (deriv_minus lo hi t H (fun _ => PI / 2) (fun u => atan (g u / f u))); [apply deriv_const|].
           apply (deriv_comp lo hi t H (fun u => g u / f u) atan); [|apply derivable_pt_lim_atan].
           apply deriv_div; [exact H|lra|exact G|exact F].
        -- cbn beta. field. repeat split; lra.
    + destruct (near_pos lo hi (fun u => - f u) t (- d) H) as (r & R0 & K).
      { apply deriv_opp; assumption. } { lra. }
      apply (deriv_local lo hi (fun u => - (PI / 2) - atan (g u / f u)) _ t _ r R0 H).
      * intros u U A. symmetry. apply atan2_down. specialize (K u U A). lra.
      * eapply deriv_eq.
        -- apply (deriv_minus lo hi t H (fun _ => - (PI / 2)) (fun u => atan (g u / f u))); [apply deriv_const|].
           apply (deriv_comp lo hi t H (fun u => g u / f u) atan); [|apply derivable_pt_lim_atan].
           apply deriv_div; [exact H|lra|exact G|exact F].
        -- cbn beta. field. repeat split; lra.
Qed.

(** ** planar quadrotor *)
Lemma quad_polar : forall x y : jet,
  quad_u1 x y * cos (quad_theta x y) = y 2%nat + gravity /\ quad_u1 x y * sin (quad_theta x y) = x 2%nat.
Proof.
  intros x y. unfold quad_u1, quad_theta.
  replace (x 2%nat ^ 2 + (y 2%nat + gravity) ^ 2)
    with ((y 2%nat + gravity) * (y 2%nat + gravity) + x 2%nat * x 2%nat) by ring.
  apply atan2_polar.
Qed.
Lemma deriv_add_const : forall lo hi t f d c, lo <= t <= hi -> deriv_in lo hi f t d -> deriv_in lo hi (fun u => f u + c) t d.
Proof.
  intros lo hi t f d c H D. eapply deriv_eq; [apply (deriv_plus lo hi t H f (fun _ => c)); [exact D|apply deriv_const]|ring].
Qed.
Lemma quad_moves : forall lo hi (x y : R -> jet) t, lo <= t <= hi ->
  (forall o, (o <= 2)%nat -> smooth lo hi x o /\ smooth lo hi y o) ->
  0 < y t 2%nat + gravity \/ x t 2%nat <> 0 ->
  moves lo hi [(fun u => nth 0 (quad_state (x u) (y u)) 0); (fun u => nth 1 (quad_state (x u) (y u)) 0);
               (fun u => nth 2 (quad_state (x u) (y u)) 0); (fun u => nth 3 (quad_state (x u) (y u)) 0);
               (fun u => nth 4 (quad_state (x u) (y u)) 0)] t
    (quad_ode (quad_state (x t) (y t)) (quad_input (x t) (y t))).
Proof.
  intros lo hi x y t H S NZ. unfold moves, quad_ode, quad_state, quad_input. cbn [nth].
  destruct (quad_polar (x t) (y t)) as [C D]. rewrite C, D.
  replace (y t 2%nat + gravity - gravity) with (y t 2%nat) by ring.
  constructor; [apply (S 0%nat); [lia|exact H]|]. constructor; [apply (S 0%nat); [lia|exact H]|].
  constructor; [apply (S 1%nat); [lia|exact H]|]. constructor; [apply (S 1%nat); [lia|exact H]|].
  constructor; [|constructor]. unfold quad_theta, quad_u2.
  apply (deriv_atan2 lo hi t (fun u => x u 2%nat) (fun u => y u 2%nat + gravity)); [exact H|exact NZ| |].
  - apply (S 2%nat); [lia|exact H].
  - apply deriv_add_const; [exact H|]. apply (S 2%nat); [lia|exact H].
Qed.
Lemma sqrt_ge_iff : forall a m, 0 <= a -> 0 <= m -> (m <= sqrt a <-> m ^ 2 <= a).
Proof.
  intros a m A M. split; intros H.
  - rewrite <- (pow2_sqrt a A). apply pow_incr. lra.
  - rewrite <- (sqrt_pow2 m M). apply sqrt_le_1_alt. exact H.
Qed.
Lemma phys3 : forall T s, phys T s 3 = s 3%nat / T ^ 3. Proof. reflexivity. Qed.
Lemma quad_limits : forall u1min u1max u2min u2max T env, 0 < T -> 0 < u1min -> 0 <= u1max ->
  let x := phys T (env 0%nat) in let y := phys T (env 1%nat) in
  (holds env (quad_constraints u1min u1max u2min u2max T) <->
   u1min <= nth 0 (quad_input x y) 0 <= u1max /\ u2min <= nth 1 (quad_input x y) 0 <= u2max).
Proof.
  intros u1min u1max u2min u2max T env P U1 U2 x y. unfold quad_input, quad_constraints, quad_u1, quad_u2, x, y. cbn [nth].
  open_holds. rewrite !phys2, !phys3.
  set (a := env 0%nat 2%nat). set (c := env 1%nat 2%nat + gravity * T ^ 2).
  set (a' := env 0%nat 3%nat). set (c' := env 1%nat 3%nat).
  assert (T2 : 0 < T ^ 2) by (apply pow_lt; exact P). assert (T4 : 0 < T ^ 4) by (apply pow_lt; exact P).
  replace (env 1%nat 2%nat / T ^ 2 + gravity) with (c / T ^ 2) by (unfold c; field; lra).
  set (q := a ^ 2 + c ^ 2). set (n := a' * c - a * c').
  assert (QN : 0 <= q) by (unfold q; pose proof (pow2_ge_0 a); pose proof (pow2_ge_0 c); lra).
  replace ((a / T ^ 2) ^ 2 + (c / T ^ 2) ^ 2) with (q / T ^ 4) by (unfold q; field; lra).
  replace ((c / T ^ 2) ^ 2 + (a / T ^ 2) ^ 2) with (q / T ^ 4) by (unfold q; field; lra).
  replace (a' / T ^ 3 * (c / T ^ 2) - a / T ^ 2 * (c' / T ^ 3)) with (n / (T ^ 4 * T)) by (unfold n; field; lra).
  assert (QT : 0 <= q / T ^ 4) by (apply Rmult_le_pos; [exact QN|left; apply Rinv_0_lt_compat; exact T4]).
  rewrite sqrt_le_iff, sqrt_ge_iff by (try assumption; lra).
  rewrite <- scaled_hi, <- scaled_lo by exact T4.
  pose proof (holds_nil env).
  assert (K : T ^ 4 * u1min ^ 2 <= q -> 
     (- n + q * (T * u2min) <= 0 <-> u2min <= n / (T ^ 4 * T) / (q / T ^ 4)) /\
     (n - q * (T * u2max) <= 0 <-> n / (T ^ 4 * T) / (q / T ^ 4) <= u2max)).
  { intros QQ. assert (QP : 0 < q).
    { assert (0 < T ^ 4 * u1min ^ 2) by (apply Rmult_lt_0_compat; [exact T4|apply pow_lt; exact U1]). lra. }
    replace (n / (T ^ 4 * T) / (q / T ^ 4)) with (n / (q * T)) by (field; repeat split; lra).
    assert (0 < q * T) by (apply Rmult_lt_0_compat; assumption).
    rewrite <- scaled_lo, <- scaled_hi by assumption. split; split; intros; lra. }
  split.
  - intros (A & B & C & D & _). destruct (K ltac:(lra)) as [K1 K2]. split; [lra|]. split; [apply K1|apply K2]; assumption.
  - intros ((A & B) & C & D). destruct (K ltac:(lra)) as [K1 K2]. split; [lra|]. split; [lra|].
    split; [apply K1; exact C|]. split; [apply K2; exact D|exact H].
Qed.
Lemma quad_init_ok : forall px py vx vy ax ay T env, 0 < T ->
  (holds env (map init_constraint (quad_init (px, py) (vx, vy) (ax, ay) T)) <->
   [phys T (env 0%nat) 0; phys T (env 1%nat) 0; phys T (env 0%nat) 1; phys T (env 1%nat) 1;
    phys T (env 0%nat) 2; phys T (env 1%nat) 2] = [px; py; vx; vy; ax; ay]).
Proof.
  intros px py vx vy ax ay T env H. unfold quad_init. cbn [fst snd]. open_init.
  assert (T2 : 0 < T ^ 2) by (apply pow_lt; exact H).
  rewrite !phys0, !phys1, !phys2.
  rewrite (eq_scaled T _ vx), (eq_scaled T _ vy), (eq_scaled (T ^ 2) _ ax), (eq_scaled (T ^ 2) _ ay) by assumption.
  pose proof (holds_nil env). split.
  - intros (A & B & C & D & E & F & _). rewrite A, B, C, D, E, F. reflexivity.
  - intros E. injection E as A B C D E F. auto 10.
Qed.
Lemma quad_term_ok : forall px py T env tol, 0 < T -> 0 <= tol ->
  holds env (map term_constraint (quad_term (px, py))) ->
  arrived tol (vsub [phys T (env 0%nat) 0; phys T (env 1%nat) 0] [px; py]) [phys T (env 0%nat) 1; phys T (env 1%nat) 1] = true /\
  quad_theta (phys T (env 0%nat)) (phys T (env 1%nat)) = 0 /\
  quad_input (phys T (env 0%nat)) (phys T (env 1%nat)) = [gravity; 0].
Proof.
  intros px py T env tol P TP H. unfold quad_term in H. cbn [fst snd] in H. revert H. open_init.
  intros (A & B & C & D & E & F & G & I & _). unfold vsub. cbn [combine map fst snd].
  assert (T2 : 0 < T ^ 2) by (apply pow_lt; exact P). assert (T3 : 0 < T ^ 3) by (apply pow_lt; exact P).
  unfold quad_theta, quad_input, quad_u1, quad_u2. rewrite !phys0, !phys1, !phys2, !phys3. rewrite A, B, C, D, E, F, G, I.
  replace (0 / T ^ 2) with 0 by (field; lra). replace (0 / T ^ 3) with 0 by (field; lra).
  assert (GP : 0 < gravity) by (unfold gravity; lra).
  split; [|split].
  - apply arrived_zero; [exact TP| |]; zeros; field; lra.
  - rewrite atan2_right by lra. replace (0 / (0 + gravity)) with 0 by (field; lra). apply atan_0.
  - replace (0 ^ 2 + (0 + gravity) ^ 2) with (gravity ^ 2) by ring. rewrite sqrt_pow2 by lra.
    f_equal. f_equal. field. lra.
Qed.

(** ** Quadrotor3D *)
Lemma quad3d_acc : forall f p q : jet,
  let u1 := quad3d_f f p q in let phi := tgtheta p in let th := tgtheta q in
  quad3d_ddx (f 0%nat) (p 0%nat) (q 0%nat) = u1 * sin th * cos phi /\
  quad3d_ddy (f 0%nat) (p 0%nat) (q 0%nat) = - u1 * sin phi /\
  quad3d_ddz (f 0%nat) (p 0%nat) (q 0%nat) = - gravity + u1 * cos phi * cos th.
Proof.
  intros f p q u1 phi th. unfold u1, phi, th. rewrite !tgtheta_atan, !cos_2atan, !sin_2atan.
  unfold quad3d_f, quad3d_ddx, quad3d_ddy, quad3d_ddz.
  pose proof (one_sq (p 0%nat)). pose proof (one_sq (q 0%nat)). repeat split; field; lra.
Qed.
Lemma quad3d_moves : forall lo hi (f p q : R -> jet) x y z vx vy vz t, lo <= t <= hi ->
  smooth lo hi p 0 -> smooth lo hi q 0 ->
  deriv_in lo hi x t (vx t) -> deriv_in lo hi y t (vy t) -> deriv_in lo hi z t (vz t) ->
  deriv_in lo hi vx t (quad3d_ddx (f t 0%nat) (p t 0%nat) (q t 0%nat)) ->
  deriv_in lo hi vy t (quad3d_ddy (f t 0%nat) (p t 0%nat) (q t 0%nat)) ->
  deriv_in lo hi vz t (quad3d_ddz (f t 0%nat) (p t 0%nat) (q t 0%nat)) ->
  moves lo hi [x; y; z; vx; vy; vz; (fun u => tgtheta (p u)); (fun u => tgtheta (q u))] t
    (quad3d_ode [x t; y t; z t; vx t; vy t; vz t; tgtheta (p t); tgtheta (q t)] (quad3d_input (f t) (p t) (q t))).
Proof.
  intros lo hi f p q x y z vx vy vz t H SP SQ X Y Z VX VY VZ.
  unfold moves, quad3d_ode, quad3d_input. cbn [nth].
  destruct (quad3d_acc (f t) (p t) (q t)) as (A & B & C). cbv zeta in *. rewrite <- A, <- B, <- C.
  do 6 (constructor; [assumption|]).
  constructor; [apply theta_deriv; assumption|]. constructor; [apply theta_deriv; assumption|constructor].
Qed.
Lemma quad3d_trajectory : forall T (f p q : R -> jet) I1x I1y I1z I2x I2y I2z x0 y0 z0 vx0 vy0 vz0 t0 t,
  0 < T -> 0 <= t <= T -> smooth 0 1 p 0 -> smooth 0 1 q 0 ->
  (forall u, 0 <= u <= 1 -> deriv_in 0 1 I1x u (quad3d_ddx (f u 0%nat) (p u 0%nat) (q u 0%nat))) ->
  (forall u, 0 <= u <= 1 -> deriv_in 0 1 I1y u (quad3d_ddy (f u 0%nat) (p u 0%nat) (q u 0%nat))) ->
  (forall u, 0 <= u <= 1 -> deriv_in 0 1 I1z u (quad3d_ddz (f u 0%nat) (p u 0%nat) (q u 0%nat))) ->
  (forall u, 0 <= u <= 1 -> deriv_in 0 1 I2x u (integrate_twice_vel I1x vx0 t0 T u)) ->
  (forall u, 0 <= u <= 1 -> deriv_in 0 1 I2y u (integrate_twice_vel I1y vy0 t0 T u)) ->
  (forall u, 0 <= u <= 1 -> deriv_in 0 1 I2z u (integrate_twice_vel I1z vz0 t0 T u)) ->
  let x := fun u => integrate_twice_pos I2x x0 t0 T (u / T) in
  let y := fun u => integrate_twice_pos I2y y0 t0 T (u / T) in
  let z := fun u => integrate_twice_pos I2z z0 t0 T (u / T) in
  let vx := fun u => integrate_twice_vel I1x vx0 t0 T (u / T) in
  let vy := fun u => integrate_twice_vel I1y vy0 t0 T (u / T) in
  let vz := fun u => integrate_twice_vel I1z vz0 t0 T (u / T) in
  let phi := fun u => tgtheta (phys T (p (u / T))) in let th := fun u => tgtheta (phys T (q (u / T))) in
  moves 0 T [x; y; z; vx; vy; vz; phi; th] t
    (quad3d_ode [x t; y t; z t; vx t; vy t; vz t; phi t; th t]
       (quad3d_input (phys T (f (t / T))) (phys T (p (t / T))) (phys T (q (t / T))))) /\
  [x t0; y t0; z t0; vx t0; vy t0; vz t0] = [x0; y0; z0; vx0; vy0; vz0].
Proof.
  intros T f p q I1x I1y I1z I2x I2y I2z x0 y0 z0 vx0 vy0 vz0 t0 t P H SP SQ A1 A2 A3 B1 B2 B3 x y z vx vy vz phi th.
  split.
  - apply (quad3d_moves 0 T (fun u => phys T (f (u / T))) (fun u => phys T (p (u / T))) (fun u => phys T (q (u / T)))).
    + exact H.
    + apply phys_smooth; assumption.
    + apply phys_smooth; assumption.
    + apply (integrate_phys I2x x0 t0 T t (integrate_twice_vel I1x vx0 t0 T)); assumption.
    + apply (integrate_phys I2y y0 t0 T t (integrate_twice_vel I1y vy0 t0 T)); assumption.
    + apply (integrate_phys I2z z0 t0 T t (integrate_twice_vel I1z vz0 t0 T)); assumption.
    + rewrite !phys0. apply (integrate_phys I1x vx0 t0 T t (fun u => quad3d_ddx (f u 0%nat) (p u 0%nat) (q u 0%nat))); assumption.
    + rewrite !phys0. apply (integrate_phys I1y vy0 t0 T t (fun u => quad3d_ddy (f u 0%nat) (p u 0%nat) (q u 0%nat))); assumption.
    + rewrite !phys0. apply (integrate_phys I1z vz0 t0 T t (fun u => quad3d_ddz (f u 0%nat) (p u 0%nat) (q u 0%nat))); assumption.
  - unfold x, y, z, vx, vy, vz, integrate_twice_pos, integrate_twice_vel. rewrite !integrate_start. reflexivity.
Qed.
Lemma half_le : forall a d, - PI < d < PI -> (a - tan (1/2 * d) <= 0 <-> 2 * atan a <= d).
Proof.
  intros a d H. pose proof (atan_le_iff a (1/2 * d) ltac:(lra)) as K. split; intros G.
  - apply Rmult_le_reg_l with (1/2); [lra|]. replace (1/2 * (2 * atan a)) with (atan a) by field. apply K. lra.
  - assert (atan a <= 1/2 * d) by lra. apply K in H0. lra.
Qed.
Lemma half_ge : forall a d, - PI < d < PI -> (- a + tan (1/2 * d) <= 0 <-> d <= 2 * atan a).
Proof.
  intros a d H. pose proof (atan_ge_iff a (1/2 * d) ltac:(lra)) as K. split; intros G.
  - assert (1/2 * d <= atan a) by (apply K; lra). lra.
  - assert (X : 1/2 * d <= atan a) by lra. apply K in X. lra.
Qed.
Lemma quad3d_limits : forall u1min u1max u2min u2max u3min u3max phimin phimax thmin thmax T env, 0 < T ->
  - PI < phimin < PI -> - PI < phimax < PI -> - PI < thmin < PI -> - PI < thmax < PI ->
  let f := phys T (env 0%nat) in let p := phys T (env 1%nat) in let q := phys T (env 2%nat) in
  (holds env (quad3d_constraints u1min u1max u2min u2max u3min u3max phimin phimax thmin thmax T) <->
   u1min <= nth 0 (quad3d_input f p q) 0 <= u1max /\ u2min <= nth 1 (quad3d_input f p q) 0 <= u2max /\
   u3min <= nth 2 (quad3d_input f p q) 0 <= u3max /\
   phimin <= tgtheta p <= phimax /\ thmin <= tgtheta q <= thmax).
Proof.
  intros u1min u1max u2min u2max u3min u3max phimin phimax thmin thmax T env P B1 B2 B3 B4 f p q.
  unfold quad3d_input, quad3d_constraints, quad3d_f, f, p, q. cbn [nth].
  rewrite !tgdtheta_phys, !tgtheta_atan by exact P. rewrite !phys0. open_holds.
  rewrite !turn_hi, !turn_lo, !half_le, !half_ge by assumption.
  rewrite Rmult_assoc. pose proof (holds_nil env). intuition lra.
Qed.
Lemma quad3d_init_ok : forall phi th u1 T env, 0 < T -> - PI < phi < PI -> - PI < th < PI ->
  (holds env (map init_constraint (quad3d_init phi th u1)) <->
   tgtheta (phys T (env 1%nat)) = phi /\ tgtheta (phys T (env 2%nat)) = th /\
   quad3d_f (phys T (env 0%nat)) (phys T (env 1%nat)) (phys T (env 2%nat)) = u1).
Proof.
  intros phi th u1 T env P B1 B2. unfold quad3d_init, quad3d_f. open_init. rewrite !tgtheta_atan, !phys0.
  rewrite <- !half_iff by assumption. pose proof (holds_nil env).
  pose proof (one_sq (tan (phi / 2))) as Q1. pose proof (one_sq (tan (th / 2))) as Q2. split.
  - intros (A & B & C & _). rewrite A, B, C. repeat split; try reflexivity. field. lra.
  - intros (A & B & C). rewrite A, B in *. split; [|auto]. rewrite <- C. field. lra.
Qed.
(** at the end the thrust equals gravity; the rates are not constrained *)
Lemma quad3d_term_ok : forall px py pz T env tol, 0 < T -> 0 <= tol ->
  holds env (map term_constraint (quad3d_term px py pz 0 0)) ->
  env 1%nat 1%nat = 0 -> env 2%nat 1%nat = 0 ->
  arrived3d tol gravity (vsub [env 3%nat 0%nat; env 4%nat 0%nat; env 5%nat 0%nat] [px; py; pz])
    (quad3d_input (phys T (env 0%nat)) (phys T (env 1%nat)) (phys T (env 2%nat))) = true.
Proof.
  intros px py pz T env tol P TP H W1 W2. unfold quad3d_term in H. revert H. open_init.
  intros (A & B & C & D & E & F & _). replace (0 / 2) with 0 in * by field. rewrite tan_0 in D, E.
  apply arrived3d_ok. unfold vsub, quad3d_input, quad3d_f. cbn [combine map fst snd].
  rewrite !tgdtheta_phys by exact P. rewrite !phys0, A, B, C, D, E, F, W1, W2.
  replace (sumsq [px - px; py - py; pz - pz]) with 0 by (cbn [sumsq]; ring).
  replace (sumsq [gravity * ((1 + 0 ^ 2) * (1 + 0 ^ 2)); 2 * (0 / T) / (1 + 0 ^ 2); 2 * (0 / T) / (1 + 0 ^ 2)])
    with (gravity ^ 2) by (cbn [sumsq]; field; lra).
  rewrite sqrt_0, sqrt_pow2 by (unfold gravity; lra). lra.
Qed.
Lemma quad3d_term_not_enough : exists px py pz T env tol, 0 < T /\ 0 < tol < 1 /\
  holds env (map term_constraint (quad3d_term px py pz 0 0)) /\
  arrived3d tol gravity (vsub [env 3%nat 0%nat; env 4%nat 0%nat; env 5%nat 0%nat] [px; py; pz])
    (quad3d_input (phys T (env 0%nat)) (phys T (env 1%nat)) (phys T (env 2%nat))) = false.
Proof.
  exists 0, 0, 0, 1, (fun i o => match i, o with O, O => gravity | 1%nat, 1%nat => 10 | _, _ => 0 end), (1/100).
  split; [lra|]. split; [lra|]. split.
  - unfold quad3d_term. open_init. replace (0 / 2) with 0 by field. rewrite tan_0.
    do 9 (split; [reflexivity|]). apply holds_nil.
  - match goal with |- ?b = false => destruct b eqn:E end; [|reflexivity]. exfalso. apply arrived3d_ok in E.
    destruct E as [_ E]. revert E. unfold quad3d_input, quad3d_f. rewrite !tgdtheta_phys by lra. rewrite !phys0.
    match goal with |- sqrt (sumsq ?v) <= _ -> _ => replace (sumsq v) with (gravity ^ 2 + 400) by (cbn [sumsq]; field) end.
    intros E. apply sqrt_le_iff in E; unfold gravity in *; lra.
Qed.

(** ** SimpleQuadrotor3D *)
Lemma simple_s : forall a c : R, sqrt (a ^ 2 + c ^ 2) * sqrt (a ^ 2 + c ^ 2) = a ^ 2 + c ^ 2.
Proof. intros a c. apply sqrt_sqrt. pose proof (pow2_ge_0 a). pose proof (pow2_ge_0 c). lra. Qed.
Lemma simple_polar : forall x y z : jet,
  let u1 := simple3d_u1 x y z in let phi := simple3d_phi x y z in let th := simple3d_theta x y z in
  u1 * sin th * cos phi = x 2%nat /\ - u1 * sin phi = y 2%nat /\ - gravity + u1 * cos phi * cos th = z 2%nat.
Proof.
  intros x y z u1 phi th. unfold u1, phi, th, simple3d_u1, simple3d_phi, simple3d_theta.
  set (a := x 2%nat). set (b := y 2%nat). set (c := z 2%nat + gravity).
  set (s := sqrt (a ^ 2 + c ^ 2)).
  pose proof (simple_s a c) as SS. fold s in SS.
  destruct (atan2_polar (- b) s) as [C1 S1]. destruct (atan2_polar a c) as [C2 S2].
  replace (s * s + - b * - b) with (a ^ 2 + b ^ 2 + c ^ 2) in * by (rewrite SS; ring).
  replace (c * c + a * a) with (a ^ 2 + c ^ 2) in * by ring. fold s in C2, S2.
  set (r := sqrt (a ^ 2 + b ^ 2 + c ^ 2)) in *.
  split; [|split].
  - replace (r * sin (atan2 a c) * cos (atan2 (- b) s)) with (r * cos (atan2 (- b) s) * sin (atan2 a c)) by ring.
    rewrite C1. exact S2.
  - replace (- r * sin (atan2 (- b) s)) with (- (r * sin (atan2 (- b) s))) by ring. rewrite S1. ring.
  - rewrite C1, C2. unfold c. ring.
Qed.
Lemma deriv_sqrt : forall lo hi t f d, lo <= t <= hi -> 0 < f t -> deriv_in lo hi f t d ->
  deriv_in lo hi (fun u => sqrt (f u)) t (d / (2 * sqrt (f t))).
Proof.
  intros lo hi t f d H P D.
  assert (0 < sqrt (f t)) by (apply sqrt_lt_R0; exact P).
  eapply deriv_eq; [apply (deriv_comp lo hi t H f sqrt); [exact D|apply derivable_pt_lim_sqrt; exact P]|].
  field. lra.
Qed.
Lemma simple3d_moves : forall lo hi (x y z : R -> jet) t, lo <= t <= hi ->
  (forall o, (o <= 2)%nat -> smooth lo hi x o /\ smooth lo hi y o /\ smooth lo hi z o) ->
  0 < z t 2%nat + gravity \/ x t 2%nat <> 0 ->
  moves lo hi (map (fun k u => nth k (simple3d_state (x u) (y u) (z u)) 0) (seq 0 8)) t
    (quad3d_ode (simple3d_state (x t) (y t) (z t)) (simple3d_input (x t) (y t) (z t))).
Proof.
  intros lo hi x y z t H S NZ. unfold moves, quad3d_ode, simple3d_state, simple3d_input. cbn [nth map seq].
  destruct (simple_polar (x t) (y t) (z t)) as (A & B & C). cbv zeta in *. rewrite A, B, C.
  constructor; [apply (S 0%nat); [lia|exact H]|]. constructor; [apply (S 0%nat); [lia|exact H]|].
  constructor; [apply (S 0%nat); [lia|exact H]|].
  constructor; [apply (S 1%nat); [lia|exact H]|]. constructor; [apply (S 1%nat); [lia|exact H]|].
  constructor; [apply (S 1%nat); [lia|exact H]|].
  assert (DX : deriv_in lo hi (fun u => x u 2%nat) t (x t 3%nat)) by (apply (S 2%nat); [lia|exact H]).
  assert (DY : deriv_in lo hi (fun u => y u 2%nat) t (y t 3%nat)) by (apply (S 2%nat); [lia|exact H]).
  assert (DZ : deriv_in lo hi (fun u => z u 2%nat + gravity) t (z t 3%nat)).
  { apply deriv_add_const; [exact H|]. apply (S 2%nat); [lia|exact H]. }
  assert (SP : 0 < x t 2%nat ^ 2 + (z t 2%nat + gravity) ^ 2).
  { apply sum_sq_pos. destruct NZ; [right; lra|left; assumption]. }
  assert (DS : deriv_in lo hi (fun u => sqrt (x u 2%nat ^ 2 + (z u 2%nat + gravity) ^ 2)) t
     ((2 * x t 2%nat * x t 3%nat + 2 * (z t 2%nat + gravity) * z t 3%nat) / (2 * sqrt (x t 2%nat ^ 2 + (z t 2%nat + gravity) ^ 2)))).
  { apply (deriv_sqrt lo hi t (fun u => x u 2%nat ^ 2 + (z u 2%nat + gravity) ^ 2)); [exact H|exact SP|].
    apply (deriv_plus lo hi t H (fun u => x u 2%nat ^ 2) (fun u => (z u 2%nat + gravity) ^ 2)).
    - apply (deriv_pow2 lo hi t H (fun u => x u 2%nat)); exact DX.
    - apply (deriv_pow2 lo hi t H (fun u => z u 2%nat + gravity)); exact DZ. }
  constructor.
  - unfold simple3d_phi, simple3d_u2. eapply deriv_eq.
    + eapply (deriv_atan2 lo hi t (fun u => - y u 2%nat) (fun u => sqrt (x u 2%nat ^ 2 + (z u 2%nat + gravity) ^ 2)) _ _ H).
      * left. apply sqrt_lt_R0; exact SP.
      * apply deriv_opp; [exact H|]. exact DY.
      * exact DS.
    + cbn beta. pose proof (simple_s (x t 2%nat) (z t 2%nat + gravity)) as SS.
      assert (RP : 0 < sqrt (x t 2%nat ^ 2 + (z t 2%nat + gravity) ^ 2)) by (apply sqrt_lt_R0; exact SP).
      set (a := x t 2%nat) in *. set (b := y t 2%nat) in *. set (c := z t 2%nat + gravity) in *.
      set (s := sqrt (a ^ 2 + c ^ 2)) in *.
      pose proof (pow2_ge_0 b).
      replace (s ^ 2 + (- b) ^ 2) with (a ^ 2 + b ^ 2 + c ^ 2) by (replace (s ^ 2) with (s * s) by ring; rewrite SS; ring).
      replace (a ^ 2 + c ^ 2) with (s * s) at 1. field. lra.
  - constructor; [|constructor]. unfold simple3d_theta, simple3d_u3. eapply deriv_eq.
    + eapply (deriv_atan2 lo hi t (fun u => x u 2%nat) (fun u => z u 2%nat + gravity) _ _ H); [exact NZ|exact DX|exact DZ].
    + cbn beta. apply f_equal2; [ring|reflexivity].
Qed.
