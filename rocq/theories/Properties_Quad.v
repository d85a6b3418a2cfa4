(* Properties of the quadrotors. *)
From Coq Require Import Reals List Arith Bool Lia Lra.
From Verif Require Import Angle_Model Angle_Proofs Vehicle_Model Wheel_Model Quad_Model Vehicle_Spec Vehicle_Proofs Vehicle_Proofs2
  Wheel_Proofs Wheel_Proofs3 Quad_Proofs Quad_Proofs2 Vehicle_Examples.
Import ListNotations.
Open Scope R_scope.

(* Quadrotor: the state reconstructed from the flat output obeys the differential equation with the reported inputs *)
Theorem C52_quadrotor_ode : forall lo hi (x y : R -> jet) t, lo <= t <= hi ->
  (forall o, (o <= 2)%nat -> smooth lo hi x o /\ smooth lo hi y o) ->
  0 < y t 2%nat + gravity \/ x t 2%nat <> 0 ->
  moves lo hi [(fun u => nth 0 (quad_state (x u) (y u)) 0); (fun u => nth 1 (quad_state (x u) (y u)) 0);
               (fun u => nth 2 (quad_state (x u) (y u)) 0); (fun u => nth 3 (quad_state (x u) (y u)) 0);
               (fun u => nth 4 (quad_state (x u) (y u)) 0)] t
    (quad_ode (quad_state (x t) (y t)) (quad_input (x t) (y t))).
Proof. exact quad_moves. Qed.
Example C52_quadrotor_ode_ex : (forall o, smooth 0 1 (cubic 0 0 1 0) o /\ smooth 0 1 (cubic 0 1 0 1) o) /\ 0 < cubic 0 1 0 1 (1/2) 2%nat + gravity.
Proof. split; [intros; split; apply cubic_smooth|]. unfold gravity. cbn. lra. Qed.
Print Assumptions C52_quadrotor_ode.

(* its constraints say exactly that thrust and turning rate respect the limits *)
Theorem C52_quadrotor_limits : forall u1min u1max u2min u2max T env, 0 < T -> 0 < u1min -> 0 <= u1max ->
  let x := phys T (env 0%nat) in let y := phys T (env 1%nat) in
  (holds env (quad_constraints u1min u1max u2min u2max T) <->
   u1min <= nth 0 (quad_input x y) 0 <= u1max /\ u2min <= nth 1 (quad_input x y) 0 <= u2max).
Proof. exact quad_limits. Qed.
Print Assumptions C52_quadrotor_limits.

(* Quadrotor3D: position and velocity obtained by integrating twice obey the differential equation and start at the prediction *)
Theorem C52_quadrotor3d_ode : forall T (f p q : R -> jet) I1x I1y I1z I2x I2y I2z x0 y0 z0 vx0 vy0 vz0 t0 t,
  0 < T -> 0 <= t <= T -> smooth 0 1 p 0 -> smooth 0 1 q 0 ->
  (forall u, 0 <= u <= 1 -> deriv_in 0 1 I1x u (quad3d_ddx (f u 0%nat) (p u 0%nat) (q u 0%nat))) ->
  (forall u, 0 <= u <= 1 -> deriv_in 0 1 I1y u (quad3d_ddy (f u 0%nat) (p u 0%nat) (q u 0%nat))) ->
  (forall u, 0 <= u <= 1 -> deriv_in 0 1 I1z u (quad3d_ddz (f u 0%nat) (p u 0%nat) (q u 0%nat))) ->
  (forall u, 0 <= u <= 1 -> deriv_in 0 1 I2x u (integrate_twice_vel I1x vx0 t0 T u)) ->
  (forall u, 0 <= u <= 1 -> deriv_in 0 1 I2y u (integrate_twice_vel I1y vy0 t0 T u)) ->
  (forall u, 0 <= u <= 1 -> deriv_in 0 1 I2z u (integrate_twice_vel I1z vz0 t0 T u)) ->
  let x := fun u => integrate_twice_pos I2x x0 t0 T (u / T) in
  let y := fun u => integrate_twice_pos I2y y0 t0 T (u / T) in
  let z := fun u => integrate_twice_pos I2z z0 t0 T (u / T) in
  let vx := fun u => integrate_twice_vel I1x vx0 t0 T (u / T) in
  let vy := fun u => integrate_twice_vel I1y vy0 t0 T (u / T) in
  let vz := fun u => integrate_twice_vel I1z vz0 t0 T (u / T) in
  let phi := fun u => tgtheta (phys T (p (u / T))) in let th := fun u => tgtheta (phys T (q (u / T))) in
  moves 0 T [x; y; z; vx; vy; vz; phi; th] t
    (quad3d_ode [x t; y t; z t; vx t; vy t; vz t; phi t; th t]
       (quad3d_input (phys T (f (t / T))) (phys T (p (t / T))) (phys T (q (t / T))))) /\
  [x t0; y t0; z t0; vx t0; vy t0; vz t0] = [x0; y0; z0; vx0; vy0; vz0].
Proof. exact quad3d_trajectory. Qed.
Example C52_quadrotor3d_ode_ex :
  let f := cubic gravity 0 0 0 in let z := cubic 0 0 0 0 in
  smooth 0 1 z 0 /\ forall u, 0 <= u <= 1 ->
    deriv_in 0 1 (fun _ => 0) u (quad3d_ddx (f u 0%nat) (z u 0%nat) (z u 0%nat)) /\
    deriv_in 0 1 (fun _ => 0) u (quad3d_ddy (f u 0%nat) (z u 0%nat) (z u 0%nat)) /\
    deriv_in 0 1 (fun _ => 0) u (quad3d_ddz (f u 0%nat) (z u 0%nat) (z u 0%nat)).
Proof.
  intros f z. split; [apply cubic_smooth|]. intros u I. unfold f, z, quad3d_ddx, quad3d_ddy, quad3d_ddz, cubic.
  repeat split; (eapply deriv_eq; [apply deriv_const|ring]).
Qed.
Print Assumptions C52_quadrotor3d_ode.

(* its constraints say exactly that thrust, rates and attitude respect the limits *)
Theorem C52_quadrotor3d_limits : forall u1min u1max u2min u2max u3min u3max phimin phimax thmin thmax T env, 0 < T ->
  - PI < phimin < PI -> - PI < phimax < PI -> - PI < thmin < PI -> - PI < thmax < PI ->
  let f := phys T (env 0%nat) in let p := phys T (env 1%nat) in let q := phys T (env 2%nat) in
  (holds env (quad3d_constraints u1min u1max u2min u2max u3min u3max phimin phimax thmin thmax T) <->
   u1min <= nth 0 (quad3d_input f p q) 0 <= u1max /\ u2min <= nth 1 (quad3d_input f p q) 0 <= u2max /\
   u3min <= nth 2 (quad3d_input f p q) 0 <= u3max /\
   phimin <= tgtheta p <= phimax /\ thmin <= tgtheta q <= thmax).
Proof. exact quad3d_limits. Qed.
Example C52_quadrotor3d_limits_ex : - PI < PI/6 < PI.
Proof. pose proof PI_RGT_0. lra. Qed.
Print Assumptions C52_quadrotor3d_limits.

(* SimpleQuadrotor3D: the state reconstructed from the flat output obeys the differential equation *)
Theorem C52_simple_ode : forall lo hi (x y z : R -> jet) t, lo <= t <= hi ->
  (forall o, (o <= 2)%nat -> smooth lo hi x o /\ smooth lo hi y o /\ smooth lo hi z o) ->
  0 < z t 2%nat + gravity \/ x t 2%nat <> 0 ->
  moves lo hi (map (fun k u => nth k (simple3d_state (x u) (y u) (z u)) 0) (seq 0 8)) t
    (quad3d_ode (simple3d_state (x t) (y t) (z t)) (simple3d_input (x t) (y t) (z t))).
Proof. exact simple3d_moves. Qed.
Example C52_simple_ode_ex : 0 < cubic 0 1 0 1 (1/2) 2%nat + gravity.
Proof. unfold gravity. cbn. lra. Qed.
Print Assumptions C52_simple_ode.

(* its constraints keep thrust, pitch rate, roll and pitch within symmetric limits, and the roll rate within the larger of both rate limits *)
Theorem C52_simple_limits : forall u1min u1max m2 m3 mphi mth T env, 0 < T -> 0 <= u1min -> 0 <= u1max ->
  0 <= m2 -> 0 <= m3 -> 0 <= mphi -> 0 <= mth ->
  let x := phys T (env 0%nat) in let y := phys T (env 1%nat) in let z := phys T (env 2%nat) in
  0 < z 2%nat + gravity ->
  holds env (simple3d_constraints u1min u1max (- m2) m2 (- m3) m3 (- mphi) mphi (- mth) mth T) ->
  u1min <= simple3d_u1 x y z <= u1max /\ - m3 <= simple3d_u3 x y z <= m3 /\
  - Rmax m2 m3 <= simple3d_u2 x y z <= Rmax m2 m3 /\
  - mphi <= simple3d_phi x y z <= mphi /\ - mth <= simple3d_theta x y z <= mth.
Proof. exact simple3d_limits. Qed.
Example C52_simple_limits_ex : 0 < phys 1 (wit3d 2%nat) 2 + gravity /\
  holds wit3d (simple3d_constraints 1 20 (-1) 1 (-3) 3 (-2) 2 (-2) 2 1).
Proof.
  assert (EQ : forall i o, phys 1 (wit3d i) o = wit3d i o) by (intros i o; unfold phys; rewrite pow1; field).
  assert (CE : wit3d 2%nat 2%nat + gravity = 1) by (cbn; ring).
  split; [rewrite EQ, CE; lra|]. apply simple3d_meaning; [lra|]. cbv zeta. rewrite !EQ, CE. cbn [wit3d]. repeat split; lra.
Qed.
Print Assumptions C52_simple_limits.

(* the limit on the roll rate alone is not kept *)
Theorem C52_simple_rate_refuted : exists u1min u1max m2 m3 mphi mth T env, 0 < T /\ 0 < u1min /\ 0 < m2 /\
  0 < phys T (env 2%nat) 2 + gravity /\
  holds env (simple3d_constraints u1min u1max (- m2) m2 (- m3) m3 (- mphi) mphi (- mth) mth T) /\
  m2 < simple3d_u2 (phys T (env 0%nat)) (phys T (env 1%nat)) (phys T (env 2%nat)).
Proof. exact simple3d_u2_wrong. Qed.
Print Assumptions C52_simple_rate_refuted.

(* and admissible pitch angles are excluded, because the angle is used in place of its tangent *)
Theorem C52_simple_angle_refuted : exists mth T env, 0 < T /\ 0 < mth < PI/2 /\
  0 < phys T (env 2%nat) 2 + gravity /\
  - mth <= simple3d_theta (phys T (env 0%nat)) (phys T (env 1%nat)) (phys T (env 2%nat)) <= mth /\
  forall u1min u1max m2 m3 mphi,
    ~ holds env (simple3d_constraints u1min u1max (- m2) m2 (- m3) m3 (- mphi) mphi (- mth) mth T).
Proof. exact simple3d_pitch_strict. Qed.
Print Assumptions C52_simple_angle_refuted.

(* Quadrotor: the start constraints hold exactly when position, velocity and acceleration start at the prediction *)
Theorem C77_quadrotor : forall px py vx vy ax ay T env, 0 < T ->
  (holds env (map init_constraint (quad_init (px, py) (vx, vy) (ax, ay) T)) <->
   [phys T (env 0%nat) 0; phys T (env 1%nat) 0; phys T (env 0%nat) 1; phys T (env 1%nat) 1;
    phys T (env 0%nat) 2; phys T (env 1%nat) 2] = [px; py; vx; vy; ax; ay]).
Proof. exact quad_init_ok. Qed.
Print Assumptions C77_quadrotor.

(* Quadrotor3D: attitude and thrust *)
Theorem C77_quadrotor3d : forall phi th u1 T env, 0 < T -> - PI < phi < PI -> - PI < th < PI ->
  (holds env (map init_constraint (quad3d_init phi th u1)) <->
   tgtheta (phys T (env 1%nat)) = phi /\ tgtheta (phys T (env 2%nat)) = th /\
   quad3d_f (phys T (env 0%nat)) (phys T (env 1%nat)) (phys T (env 2%nat)) = u1).
Proof. exact quad3d_init_ok. Qed.
Example C77_quadrotor3d_ex : - PI < 1 < PI.
Proof. pose proof PI2_3_2. unfold PI2 in *. lra. Qed.
Print Assumptions C77_quadrotor3d.

(* SimpleQuadrotor3D: the start constraints reproduce the complete state and the thrust *)
Theorem C77_simple : forall px py pz vx vy vz phi th f0 T env, 0 < T -> 0 < f0 ->
  - (PI/2) < phi < PI/2 -> - PI < th <= PI ->
  let x := phys T (env 0%nat) in let y := phys T (env 1%nat) in let z := phys T (env 2%nat) in
  holds env (map init_constraint (simple3d_init (px, py, pz) (vx, vy, vz) phi th f0 T)) ->
  simple3d_state x y z = [px; py; pz; vx; vy; vz; phi; th] /\ simple3d_u1 x y z = f0.
Proof. exact simple3d_init_ok. Qed.
Example C77_simple_ex : - (PI/2) < 1 < PI/2 /\ - PI < -2 <= PI.
Proof. pose proof PI2_3_2. unfold PI2 in *. lra. Qed.
Print Assumptions C77_simple.

(* Quadrotor: the terminal constraints imply a positive arrival test and hovering *)
Theorem C78_quadrotor : forall px py T env tol, 0 < T -> 0 <= tol ->
  holds env (map term_constraint (quad_term (px, py))) ->
  arrived tol (vsub [phys T (env 0%nat) 0; phys T (env 1%nat) 0] [px; py]) [phys T (env 0%nat) 1; phys T (env 1%nat) 1] = true /\
  quad_theta (phys T (env 0%nat)) (phys T (env 1%nat)) = 0 /\
  quad_input (phys T (env 0%nat)) (phys T (env 1%nat)) = [gravity; 0].
Proof. exact quad_term_ok. Qed.
Example C78_quadrotor_ex :
  holds (fun i => match i with 0%nat => cubic 5 0 0 0 1 | _ => cubic 7 0 0 0 1 end) (map term_constraint (quad_term (5, 7))).
Proof.
  intros c H. cbn in H. unfold term_constraint.
  repeat (destruct H as [<- | H]; [cbn; lra|]). contradiction.
Qed.
Print Assumptions C78_quadrotor.

(* Quadrotor3D: the same needs attitude rates zero, which the constraints do not ask for *)
Theorem C78_quadrotor3d : forall px py pz T env tol, 0 < T -> 0 <= tol ->
  holds env (map term_constraint (quad3d_term px py pz 0 0)) ->
  env 1%nat 1%nat = 0 -> env 2%nat 1%nat = 0 ->
  arrived3d tol gravity (vsub [env 3%nat 0%nat; env 4%nat 0%nat; env 5%nat 0%nat] [px; py; pz])
    (quad3d_input (phys T (env 0%nat)) (phys T (env 1%nat)) (phys T (env 2%nat))) = true.
Proof. exact quad3d_term_ok. Qed.
Example C78_quadrotor3d_ex :
  holds (fun i => match i with 0%nat => cubic gravity 0 0 0 1 | 3%nat => cubic 5 0 0 0 1 | _ => cubic 0 0 0 0 1 end)
    (map term_constraint (quad3d_term 5 0 0 0 0)).
Proof.
  intros c H. cbn in H. replace (0 / 2) with 0 in H by field. rewrite tan_0 in H. unfold term_constraint in H.
  repeat (destruct H as [<- | H]; [cbn; lra|]). contradiction.
Qed.
Print Assumptions C78_quadrotor3d.

(* so they do not imply a positive arrival test *)
Theorem C78_quadrotor3d_refuted : exists px py pz T env tol, 0 < T /\ 0 < tol < 1 /\
  holds env (map term_constraint (quad3d_term px py pz 0 0)) /\
  arrived3d tol gravity (vsub [env 3%nat 0%nat; env 4%nat 0%nat; env 5%nat 0%nat] [px; py; pz])
    (quad3d_input (phys T (env 0%nat)) (phys T (env 1%nat)) (phys T (env 2%nat))) = false.
Proof. exact quad3d_term_not_enough. Qed.
Print Assumptions C78_quadrotor3d_refuted.

(* SimpleQuadrotor3D: arrival and hovering level *)
Theorem C78_simple : forall px py pz T env tol, 0 < T -> 0 <= tol ->
  let x := phys T (env 0%nat) in let y := phys T (env 1%nat) in let z := phys T (env 2%nat) in
  holds env (map term_constraint (simple3d_term px py pz)) ->
  arrived tol (vsub [x 0%nat; y 0%nat; z 0%nat] [px; py; pz]) [x 1%nat; y 1%nat; z 1%nat] = true /\
  simple3d_state x y z = [px; py; pz; 0; 0; 0; 0; 0] /\ simple3d_u1 x y z = gravity.
Proof. exact simple3d_term_ok. Qed.
Print Assumptions C78_simple.
