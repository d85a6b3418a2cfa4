(* Properties of vehicles with a heading: Dubins, Bicycle, AGV and Trailer. *)
From Coq Require Import Reals List Arith Bool Lia Lra.
From Verif Require Import Angle_Model Angle_Proofs Vehicle_Model Wheel_Model Vehicle_Spec Vehicle_Proofs Vehicle_Proofs2
  Wheel_Proofs Wheel_Proofs2 Wheel_Proofs3 Vehicle_Examples.
Import ListNotations.
Open Scope R_scope.

(* Dubins: the position integrated from v_til and tg_ha and the heading obey the vehicle's differential equation with the reported inputs, in physical time *)
Theorem C51_dubins_trajectory : forall T (v tg : R -> jet) Ix Iy x0 y0 t0 t, 0 < T -> 0 <= t <= T ->
  smooth 0 1 tg 0 ->
  (forall tau, 0 <= tau <= 1 -> deriv_in 0 1 Ix tau (til_dx (v tau 0%nat) (tg tau 0%nat))) ->
  (forall tau, 0 <= tau <= 1 -> deriv_in 0 1 Iy tau (til_dy (v tau 0%nat) (tg tau 0%nat))) ->
  let x := fun u => integrate_once Ix x0 t0 T (u / T) in
  let y := fun u => integrate_once Iy y0 t0 T (u / T) in
  let th := fun u => tgtheta (phys T (tg (u / T))) in
  moves 0 T [x; y; th] t
    (dubins_ode [x t; y t; th t] (dubins_input (phys T (v (t / T))) (phys T (tg (t / T))))).
Proof. exact dubins_trajectory. Qed.
Example C51_dubins_trajectory_ex :
  let v := cubic 1 0 0 0 in let tg := cubic 0 1 0 0 in
  smooth 0 1 tg 0 /\
  (forall tau, 0 <= tau <= 1 -> deriv_in 0 1 (fun u => cubic 0 1 0 (-1/3) u 0%nat) tau (til_dx (v tau 0%nat) (tg tau 0%nat))) /\
  (forall tau, 0 <= tau <= 1 -> deriv_in 0 1 (fun u => cubic 0 0 1 0 u 0%nat) tau (til_dy (v tau 0%nat) (tg tau 0%nat))).
Proof.
  intros v tg. split; [apply cubic_smooth|]. split; intros tau I; eapply deriv_eq.
  - apply (cubic_smooth 0 1 0 1 0 (-1/3) 0 tau I).
  - unfold til_dx, v, tg. cbn. field.
  - apply (cubic_smooth 0 1 0 0 1 0 0 tau I).
  - unfold til_dy, v, tg. cbn. ring.
Qed.
Print Assumptions C51_dubins_trajectory.

(* the same for any position with that velocity *)
Theorem C51_dubins_ode : forall lo hi (v tg : R -> jet) x y t, lo <= t <= hi -> smooth lo hi tg 0 ->
  deriv_in lo hi x t (til_dx (v t 0%nat) (tg t 0%nat)) ->
  deriv_in lo hi y t (til_dy (v t 0%nat) (tg t 0%nat)) ->
  moves lo hi [x; y; fun u => tgtheta (tg u)] t
    (dubins_ode [x t; y t; tgtheta (tg t)] (dubins_input (v t) (tg t))).
Proof. exact dubins_moves. Qed.
Print Assumptions C51_dubins_ode.

(* the position in the terminal constraints (normalised time) and the logged position (physical time) are the same *)
Theorem C51_same_position : forall I J x0 t0 T f, 0 < T -> 0 <= t0 <= T ->
  (forall tau, 0 <= tau <= 1 -> deriv_in 0 1 I tau (f tau)) ->
  (forall t, 0 <= t <= T -> deriv_in 0 T J t (f (t / T))) ->
  forall t, 0 <= t <= T -> integrate_once I x0 t0 T (t / T) = integrate_once J x0 t0 1 t.
Proof. exact integrate_same. Qed.
Example C51_same_position_ex : forall T, 0 < T ->
  (forall tau, 0 <= tau <= 1 -> deriv_in 0 1 (fun u => u) tau 1) /\ (forall t, 0 <= t <= T -> deriv_in 0 T (fun u => u) t 1).
Proof. intros T _. split; intros; apply deriv_id. Qed.
Print Assumptions C51_same_position.

(* the constraints say exactly that speed and turning rate respect the limits *)
Theorem C51_dubins_limits : forall vmax wmin wmax T env, 0 < T ->
  let V := nth 0 (dubins_input (phys T (env 0%nat)) (phys T (env 1%nat))) 0 in
  let w := nth 1 (dubins_input (phys T (env 0%nat)) (phys T (env 1%nat))) 0 in
  (holds env (dubins_constraints vmax wmin wmax T) <-> 0 <= V <= vmax /\ wmin <= w <= wmax).
Proof. exact dubins_limits. Qed.
Print Assumptions C51_dubins_limits.

(* with exact substitution the extra splines are the velocity *)
Theorem C51_exact_substitution : forall env, holds env dubins_exact_substitution <->
  env 4%nat 0%nat = til_dx (env 0%nat 0%nat) (env 1%nat 0%nat) /\
  env 5%nat 0%nat = til_dy (env 0%nat 0%nat) (env 1%nat 0%nat).
Proof. exact dubins_exact. Qed.
Print Assumptions C51_exact_substitution.

(* the logged acceleration is the derivative of the speed *)
Theorem C51_dubins_acceleration : forall lo hi (v tg : R -> jet) t, lo <= t <= hi -> smooth lo hi v 0 -> smooth lo hi tg 0 ->
  deriv_in lo hi (fun u => til_V (v u) (tg u)) t (dubins_acc (v t) (tg t)).
Proof. exact dubins_acc_ok. Qed.
Print Assumptions C51_dubins_acceleration.

(* but amax limits nothing: the acceleration is unbounded *)
Theorem C51_dubins_acceleration_refuted : exists vmax wmin wmax T env, 0 < T /\
  holds env (dubins_constraints vmax wmin wmax T) /\
  forall amax, exists env', holds env' (dubins_constraints vmax wmin wmax T) /\
    amax < dubins_acc (phys T (env' 0%nat)) (phys T (env' 1%nat)).
Proof. exact dubins_acc_free. Qed.
Print Assumptions C51_dubins_acceleration_refuted.

(* Bicycle (sgn = 1) and AGV (sgn = -1) with positive speed: the reported state, including the steering angle, obeys the differential equation with the reported inputs *)
Theorem C51_bicycle_ode : forall sgn L, sgn = 1 \/ sgn = -1 -> 0 < L ->
  forall lo hi (v tg : R -> jet) x y t, lo <= t <= hi ->
  smooth lo hi v 0 -> smooth lo hi tg 0 -> smooth lo hi tg 1 ->
  (forall u, lo <= u <= hi -> 0 < v u 0%nat) ->
  deriv_in lo hi x t (til_dx (v t 0%nat) (tg t 0%nat)) ->
  deriv_in lo hi y t (til_dy (v t 0%nat) (tg t 0%nat)) ->
  moves lo hi [x; y; (fun u => tgtheta (tg u)); (fun u => steer_angle sgn L (v u) (tg u))] t
    (bicycle_ode sgn L [x t; y t; tgtheta (tg t); steer_angle sgn L (v t) (tg t)]
       [til_V (v t) (tg t); steer_rate sgn L (v t) (tg t)]).
Proof. exact bicycle_moves. Qed.
Example C51_bicycle_ode_ex :
  let v := cubic 1 1 0 0 in let tg := cubic 0 1 1 0 in
  smooth 0 1 v 0 /\ smooth 0 1 tg 0 /\ smooth 0 1 tg 1 /\ forall u, 0 <= u <= 1 -> 0 < v u 0%nat.
Proof.
  intros v tg. do 3 (split; [apply cubic_smooth|]). intros u I. unfold v. cbn. lra.
Qed.
Print Assumptions C51_bicycle_ode.

(* the reported steering rate is the derivative of the reported steering angle *)
Theorem C51_steering_rate : forall sgn L, sgn = 1 \/ sgn = -1 -> 
  forall lo hi (v tg : R -> jet) t, lo <= t <= hi ->
  smooth lo hi v 0 -> smooth lo hi tg 0 -> smooth lo hi tg 1 ->
  (forall u, lo <= u <= hi -> 0 < v u 0%nat) ->
  deriv_in lo hi (fun u => steer_angle sgn L (v u) (tg u)) t (steer_rate sgn L (v t) (tg t)).
Proof. exact steer_deriv. Qed.
Print Assumptions C51_steering_rate.

(* the constraints say exactly that speed, acceleration, steering angle and steering rate respect the limits *)
Theorem C51_bicycle_limits : forall sgn L, sgn = 1 \/ sgn = -1 -> 
  forall vmax amax dmin dmax ddmin ddmax T env, 0 < T ->
  - (PI/2) < dmin < PI/2 -> - (PI/2) < dmax < PI/2 -> 0 < env 0%nat 0%nat ->
  let v := phys T (env 0%nat) in let tg := phys T (env 1%nat) in
  (holds env (bicycle_constraints sgn L vmax amax dmin dmax ddmin ddmax T) <->
   til_V v tg <= vmax /\ dubins_acc v tg <= amax /\
   dmin <= steer_angle sgn L v tg <= dmax /\ ddmin <= steer_rate sgn L v tg <= ddmax).
Proof. exact bicycle_limits. Qed.
Example C51_bicycle_limits_ex : - (PI/2) < PI/6 < PI/2 /\ 0 < cubic 1 0 0 0 0 0%nat.
Proof. pose proof PI_RGT_0. cbn. lra. Qed.
Print Assumptions C51_bicycle_limits.

(* there is no limit on braking *)
Theorem C51_braking_refuted : forall sgn L, sgn = 1 \/ sgn = -1 -> 
  forall vmax amax dmin dmax ddmin ddmax T, 0 < T -> 0 < vmax -> 0 <= amax ->
  dmin <= 0 <= dmax -> - (PI/2) < dmin -> dmax < PI/2 -> ddmin <= 0 <= ddmax ->
  forall a, exists env, 0 < env 0%nat 0%nat /\
    holds env (bicycle_constraints sgn L vmax amax dmin dmax ddmin ddmax T) /\
    dubins_acc (phys T (env 0%nat)) (phys T (env 1%nat)) < a.
Proof. exact bicycle_brake_free. Qed.
Print Assumptions C51_braking_refuted.

(* starting from standstill: the angle written for the first sample is the limit of the angles shortly after *)
Theorem C51_steering_at_start : forall sgn L, forall lo hi (v tg : R -> jet) t, lo <= t <= hi ->
  smooth lo hi v 0 -> smooth lo hi tg 0 -> smooth lo hi tg 1 ->
  v t 0%nat = 0 -> tg t 1%nat = 0 -> 0 < v t 1%nat ->
  forall eps, 0 < eps -> exists delta, 0 < delta /\
    forall h, 0 < h < delta -> t + h <= hi ->
      Rabs (steer_angle sgn L (v (t + h)) (tg (t + h)) - steer_hop sgn L (v t) (tg t)) < eps.
Proof. exact steer_limit. Qed.
Example C51_steering_at_start_ex :
  let v := cubic 0 1 0 0 in let tg := cubic 0 0 1 0 in v 0 0%nat = 0 /\ tg 0 1%nat = 0 /\ 0 < v 0 1%nat.
Proof. cbn. lra. Qed.
Print Assumptions C51_steering_at_start.

(* away from standstill the samples are written uncorrected *)
Theorem C51_no_correction : forall sgn L, forall ss : list (jet * jet), (2 <= length ss)%nat -> (forall s : jet * jet, In s ss -> 1/1000 < fst s 0%nat) ->
  steer_signals sgn L ss = Some (map (fun s => (steer_angle sgn L (fst s) (snd s), steer_rate sgn L (fst s) (snd s))) ss).
Proof. exact steer_signals_raw. Qed.
Example C51_no_correction_ex : forall s : jet * jet, In s [(cubic 1 0 0 0 0, cubic 0 1 0 0 0); (cubic 2 0 0 0 0, cubic 0 1 0 0 0)] ->
  1/1000 < fst s 0%nat.
Proof. intros s [<- | [<- | []]]; cbn; lra. Qed.
Print Assumptions C51_no_correction.

(* a slow turn to the right is taken for a standstill, because the tests lack absolute values: the steering angle written is zero though the vehicle turns *)
Theorem C51_correction_refuted : exists p0 p1 p2,
  holds (pick still_v still_tg) (bicycle_constraints 1 (1/10) (8/10) 1 (- (PI/6)) (PI/6) (- (PI/4)) (PI/4) 1) /\
  steer_signals 1 (1/10) [(go_v, go_tg); (still_v, still_tg); (go_v, go_tg)] = Some [p0; p1; p2] /\
  fst p1 = 0 /\ steer_angle 1 (1/10) still_v still_tg < 0 /\ til_V still_v still_tg > 9/100.
Proof. exact fixup_wrong. Qed.
Print Assumptions C51_correction_refuted.

(* along every solution of the trailer's differential equation the offset between hitch and vehicle is constant *)
Theorem C53_hitched : forall lo hi l (s : nat -> R -> R) (input : R -> list R), l <> 0 ->
  (forall t, lo <= t <= hi ->
     moves lo hi [s 0%nat; s 1%nat; s 2%nat; s 3%nat; s 4%nat; s 5%nat] t
       (trailer_ode l [s 0%nat t; s 1%nat t; s 2%nat t; s 3%nat t; s 4%nat t; s 5%nat t] (input t))) ->
  forall t u, lo <= t <= hi -> lo <= u <= hi ->
    s 3%nat t - s 0%nat t - l * cos (s 2%nat t) = s 3%nat u - s 0%nat u - l * cos (s 2%nat u) /\
    s 4%nat t - s 1%nat t - l * sin (s 2%nat t) = s 4%nat u - s 1%nat u - l * sin (s 2%nat u).
Proof. exact trailer_hitch. Qed.
Print Assumptions C53_hitched.

(* so a hitched trailer stays hitched at distance l *)
Theorem C53_stays_hitched : forall lo hi l (s : nat -> R -> R) (input : R -> list R), l <> 0 ->
  (forall t, lo <= t <= hi ->
     moves lo hi [s 0%nat; s 1%nat; s 2%nat; s 3%nat; s 4%nat; s 5%nat] t
       (trailer_ode l [s 0%nat t; s 1%nat t; s 2%nat t; s 3%nat t; s 4%nat t; s 5%nat t] (input t))) ->
  forall t0, lo <= t0 <= hi ->
  s 0%nat t0 = s 3%nat t0 - l * cos (s 2%nat t0) -> s 1%nat t0 = s 4%nat t0 - l * sin (s 2%nat t0) ->
  forall t, lo <= t <= hi ->
    s 0%nat t = s 3%nat t - l * cos (s 2%nat t) /\ s 1%nat t = s 4%nat t - l * sin (s 2%nat t) /\
    sqrt ((s 3%nat t - s 0%nat t) ^ 2 + (s 4%nat t - s 1%nat t) ^ 2) = Rabs l.
Proof. exact trailer_stays. Qed.
Example C53_stays_hitched_ex :
  let s := fun (i : nat) (u : R) => match i with 0%nat => u - 2 | 3%nat => u | _ => 0 end in
  (forall t, 0 <= t <= 1 ->
     moves 0 1 [s 0%nat; s 1%nat; s 2%nat; s 3%nat; s 4%nat; s 5%nat] t
       (trailer_ode 2 [s 0%nat t; s 1%nat t; s 2%nat t; s 3%nat t; s 4%nat t; s 5%nat t] [1; 0])) /\
  s 0%nat 0 = s 3%nat 0 - 2 * cos (s 2%nat 0) /\ s 1%nat 0 = s 4%nat 0 - 2 * sin (s 2%nat 0).
Proof.
  intros s. unfold s. rewrite cos_0, sin_0. split; [|split; ring]. intros t I.
  unfold trailer_ode, dubins_ode. cbn [nth app]. rewrite Rminus_0_r, sin_0, cos_0.
  assert (A : forall c, deriv_in 0 1 (fun u => u - c) t 1).
  { intros c. eapply deriv_eq; [apply (deriv_minus 0 1 t I (fun u => u) (fun _ => c) 1 0 (deriv_id 0 1 t) (deriv_const 0 1 c t))|ring]. }
  repeat constructor; (eapply deriv_eq; [apply A || apply deriv_id || apply deriv_const|lra]).
Qed.
Print Assumptions C53_stays_hitched.

(* the trajectory constraint is the trailer's differential equation up to 1e-3 *)
Theorem C53_pull : forall l tmin tmax T env, 0 < T ->
  let tr := phys T (env 0%nat) in let tv := phys T (env 2%nat) in
  holds env (trailer_own l tmin tmax T) ->
  Rabs (l * tgdtheta tr - til_V (phys T (env 1%nat)) tv * sin (tgtheta tv - tgtheta tr))
    <= 1/1000 / (1 + tr 0%nat ^ 2).
Proof. exact trailer_pull. Qed.
Print Assumptions C53_pull.

(* when it is met exactly the reported state obeys the differential equation *)
Theorem C53_state_ode : forall lo hi l (v tv tr : R -> jet) x y t, lo <= t <= hi -> l <> 0 ->
  smooth lo hi tv 0 -> smooth lo hi tr 0 ->
  deriv_in lo hi x t (til_dx (v t 0%nat) (tv t 0%nat)) -> deriv_in lo hi y t (til_dy (v t 0%nat) (tv t 0%nat)) ->
  l * tgdtheta (tr t) = til_V (v t) (tv t) * sin (tgtheta (tv t) - tgtheta (tr t)) ->
  moves lo hi [(fun u => nth 0 (trailer_state l (x u) (y u) (tr u)) 0);
               (fun u => nth 1 (trailer_state l (x u) (y u) (tr u)) 0);
               (fun u => nth 2 (trailer_state l (x u) (y u) (tr u)) 0); x; y; (fun u => tgtheta (tv u))] t
    (trailer_ode l (trailer_state l (x t) (y t) (tr t) ++ [x t; y t; tgtheta (tv t)]) (dubins_input (v t) (tv t))).
Proof. exact trailer_state_moves. Qed.
Print Assumptions C53_state_ode.

(* when both headings have the same sign the angle between vehicle and trailer respects its limits *)
Theorem C53_angle_same_side : forall l tmin tmax T env, 0 < T ->
  - PI < tmin <= 0 -> 0 <= tmax < PI ->
  holds env (trailer_own l tmin tmax T) -> 0 <= env 2%nat 0%nat * env 0%nat 0%nat ->
  tmin <= tgtheta (env 2%nat) - tgtheta (env 0%nat) <= tmax.
Proof. exact trailer_angle_same_side. Qed.
Example C53_angle_same_side_ex : 0 <= cubic (1/2) 0 0 0 0 0%nat * cubic (1/3) 0 0 0 0 0%nat.
Proof. cbn. lra. Qed.
Print Assumptions C53_angle_same_side.

(* otherwise the limit can be exceeded *)
Theorem C53_angle_refuted : exists l tmin tmax T env, 0 < l /\ 0 < T /\ tmin = - (PI/4) /\ tmax = PI/4 /\
  holds env (trailer_own l tmin tmax T) /\ tmax < tgtheta (env 2%nat) - tgtheta (env 0%nat).
Proof. exact trailer_angle_wrong. Qed.
Print Assumptions C53_angle_refuted.

(* and admissible angles are excluded *)
Theorem C53_angle_strict_refuted : exists l tmin tmax T env, 0 < l /\ 0 < T /\ tmin = - (PI/4) /\ tmax = PI/4 /\
  tmin <= tgtheta (env 2%nat) - tgtheta (env 0%nat) <= tmax /\ ~ holds env (trailer_own l tmin tmax T).
Proof. exact trailer_angle_strict. Qed.
Print Assumptions C53_angle_strict_refuted.

(* the state set by set_initial_conditions is not hitched *)
Theorem C53_start_refuted : exists l th xv yv thv, 0 < l /\
  let s := trailer_set_initial th [xv; yv; thv] in
  sqrt ((nth 3 s 0 - nth 0 s 0) ^ 2 + (nth 4 s 0 - nth 1 s 0) ^ 2) <> l.
Proof. exact trailer_fresh_unhitched. Qed.
Print Assumptions C53_start_refuted.

(* the constraint puts the variable for the centre within eps of the pose plus the rotated offset *)
Theorem C54_constrained_center : forall cx cy r0 r1 env,
  let tg := env 1%nat in let th := tgtheta tg in
  (holds env (dubins_center_constraints cx cy r0 r1) <->
   Rabs (env 2%nat 0%nat + (r0 * cos th - r1 * sin th) - cx) <= 1/100 / (1 + tg 0%nat ^ 2) /\
   Rabs (env 3%nat 0%nat + (r0 * sin th + r1 * cos th) - cy) <= 1/100 / (1 + tg 0%nat ^ 2)).
Proof. exact center_ok. Qed.
Print Assumptions C54_constrained_center.

(* the logged centre has the offset turned back by a further quarter turn *)
Theorem C54_logged_center : forall x y r0 r1 tg,
  let th := tgtheta tg in let ox := r0 * cos th - r1 * sin th in let oy := r0 * sin th + r1 * cos th in
  dubins_logged_center x y (tg 0%nat) r0 r1
  = (x + (cos (- (PI/2)) * ox - sin (- (PI/2)) * oy), y + (sin (- (PI/2)) * ox + cos (- (PI/2)) * oy)).
Proof. exact logged_quarter. Qed.
Print Assumptions C54_logged_center.

(* both agree only for offset zero *)
Theorem C54_coincide : forall x y r0 r1 tg,
  let th := tgtheta tg in
  (dubins_logged_center x y (tg 0%nat) r0 r1 = (x + (r0 * cos th - r1 * sin th), y + (r0 * sin th + r1 * cos th)) <->
   r0 = 0 /\ r1 = 0).
Proof. exact logged_coincide. Qed.
Print Assumptions C54_coincide.

(* Dubins: the start constraints hold exactly when heading and inputs start at the prediction *)
Theorem C77_dubins : forall th V w T env, 0 < T -> - PI < th < PI ->
  (holds env (map init_constraint (dubins_init th V w T)) <->
   tgtheta (phys T (env 1%nat)) = th /\ dubins_input (phys T (env 0%nat)) (phys T (env 1%nat)) = [V; w]).
Proof. exact dubins_init_ok. Qed.
Example C77_dubins_ex : - PI < 1 < PI.
Proof. pose proof PI2_3_2. unfold PI2 in *. lra. Qed.
Print Assumptions C77_dubins.

(* headings outside of one turn are reproduced up to full turns *)
Theorem C77_dubins_any_heading : forall th V w T env, 0 < T -> cos (th / 2) <> 0 ->
  holds env (map init_constraint (dubins_init th V w T)) ->
  turns (tgtheta (phys T (env 1%nat))) th /\ dubins_input (phys T (env 0%nat)) (phys T (env 1%nat)) = [V; w].
Proof. exact dubins_init_turns. Qed.
Example C77_dubins_any_heading_ex : cos (2 * PI / 2) <> 0.
Proof. replace (2 * PI / 2) with PI by field. rewrite cos_PI. lra. Qed.
Print Assumptions C77_dubins_any_heading.

(* Bicycle and AGV, moving: heading, speed and steering angle start at the prediction *)
Theorem C77_bicycle : forall sgn L, sgn = 1 \/ sgn = -1 -> 0 < L ->
  forall th delta V T env, 0 < T -> - PI < th < PI -> - (PI/2) < delta < PI/2 ->
  1/10000 < V / (1 + tan (th / 2) ^ 2) ->
  (holds env (map init_constraint (bicycle_init sgn L th delta V T)) <->
   tgtheta (phys T (env 1%nat)) = th /\ til_V (phys T (env 0%nat)) (phys T (env 1%nat)) = V /\
   steer_angle sgn L (phys T (env 0%nat)) (phys T (env 1%nat)) = delta).
Proof. exact bicycle_init_ok. Qed.
Example C77_bicycle_ex : 1/10000 < 1 / (1 + tan (0 / 2) ^ 2).
Proof. replace (0 / 2) with 0 by field. rewrite tan_0. lra. Qed.
Print Assumptions C77_bicycle.

(* nearly standing: the start is a standstill with the steering angle reached in the limit *)
Theorem C77_bicycle_slow : forall sgn L, forall th delta V T env, 0 < T -> - PI < th < PI -> - (PI/2) < delta < PI/2 ->
  V / (1 + tan (th / 2) ^ 2) <= 1/10000 -> 0 < env 0%nat 1%nat ->
  (holds env (map init_constraint (bicycle_init sgn L th delta V T)) <->
   tgtheta (phys T (env 1%nat)) = th /\ env 0%nat 0%nat = 0 /\ env 1%nat 1%nat = 0 /\
   steer_hop sgn L (phys T (env 0%nat)) (phys T (env 1%nat)) = delta).
Proof. exact bicycle_init_slow. Qed.
Example C77_bicycle_slow_ex : 0 / (1 + tan (0 / 2) ^ 2) <= 1/10000 /\ 0 < cubic 0 1 0 0 0 1%nat.
Proof. replace (0 / 2) with 0 by field. rewrite tan_0. cbn. lra. Qed.
Print Assumptions C77_bicycle_slow.

(* so a speed of 0.01 can be replaced by zero *)
Theorem C77_bicycle_refuted : forall sgn L, exists th V, - PI < th < PI /\ 1/100 <= V /\
  forall delta T env, 0 < T -> holds env (map init_constraint (bicycle_init sgn L th delta V T)) ->
    til_V (phys T (env 0%nat)) (phys T (env 1%nat)) = 0.
Proof. exact bicycle_init_loses_speed. Qed.
Print Assumptions C77_bicycle_refuted.

(* Trailer: angles and inputs start at the prediction *)
Theorem C77_trailer : forall l tht thv V w T env, 0 < T -> - PI < tht < PI -> - PI < thv < PI ->
  (holds env (map init_constraint (trailer_init l tht thv V w T)) <->
   tgtheta (phys T (env 0%nat)) = tht /\ tgtheta (phys T (env 2%nat)) = thv /\
   dubins_input (phys T (env 1%nat)) (phys T (env 2%nat)) = [V; w]).
Proof. exact trailer_init_ok. Qed.
Example C77_trailer_ex : - PI < 1 < PI.
Proof. pose proof PI2_3_2. unfold PI2 in *. lra. Qed.
Print Assumptions C77_trailer.

(* Dubins: the terminal constraints imply a positive arrival test *)
Theorem C78_dubins : forall px py th T env tol, 0 < T -> - PI < th < PI -> 0 <= tol ->
  holds env (map term_constraint (dubins_term (px, py, th))) ->
  arrived tol (vsub [env 2%nat 0%nat; env 3%nat 0%nat; tgtheta (phys T (env 1%nat))] [px; py; th])
    (dubins_input (phys T (env 0%nat)) (phys T (env 1%nat))) = true.
Proof. exact dubins_term_ok. Qed.
Example C78_dubins_ex : - PI < 1 < PI.
Proof. pose proof PI2_3_2. unfold PI2 in *. lra. Qed.
Print Assumptions C78_dubins.

(* Bicycle and AGV: the terminal constraints give the pose and a standstill *)
Theorem C78_bicycle : forall px py th T env, 0 < T -> - PI < th < PI ->
  holds env (map term_constraint (bicycle_term (px, py, th) T)) ->
  [env 2%nat 0%nat; env 3%nat 0%nat; tgtheta (phys T (env 1%nat))] = [px; py; th] /\
  til_V (phys T (env 0%nat)) (phys T (env 1%nat)) = 0 /\
  phys T (env 0%nat) 0 = 0 /\ phys T (env 1%nat) 1 = 0.
Proof. exact bicycle_term_pose. Qed.
Example C78_bicycle_ex : - PI < 1 < PI.
Proof. pose proof PI2_3_2. unfold PI2 in *. lra. Qed.
Print Assumptions C78_bicycle.

(* there the written steering angle and rate are those of the previous sample *)
Theorem C78_bicycle_rate : forall sgn L, forall (ss : list (jet * jet)) (v tg : jet), ss <> [] -> v 0%nat = 0 -> tg 1%nat = 0 ->
  exists out p, steer_signals sgn L (ss ++ [(v, tg)]) = Some (out ++ [p; p]).
Proof. exact steer_signals_arrived. Qed.
Example C78_bicycle_rate_ex : cubic 0 0 0 0 0 0%nat = 0 /\ [(cubic 1 0 0 0 0, cubic 0 1 0 0 0)] <> [].
Proof. split; [cbn; ring|discriminate]. Qed.
Print Assumptions C78_bicycle_rate.

(* so the terminal constraints of a bicycle do not imply a positive arrival test: the remaining steering rate of the previous sample counts *)
Theorem C78_bicycle_refuted : exists sgn L (s0 : jet * jet) (env : nat -> jet) out delta ddelta,
  holds env (map term_constraint (bicycle_term (5, 7, 0) 1)) /\
  steer_signals sgn L [s0; (phys 1 (env 0%nat), phys 1 (env 1%nat))] = Some (out ++ [(delta, ddelta)]) /\
  arrived (1/10) (vsub [env 2%nat 0%nat; env 3%nat 0%nat; tgtheta (phys 1 (env 1%nat))] [5; 7; 0])
    [til_V (phys 1 (env 0%nat)) (phys 1 (env 1%nat)); ddelta] = false.
Proof. 
  exists 1, 1, (cubic 1 0 0 0 0, cubic 0 0 (1/2) 0 0),
    (fun i => match i with 2%nat => cubic 5 0 0 0 0 | 3%nat => cubic 7 0 0 0 0 | _ => cubic 0 0 0 0 0 end).
  eexists. eexists. exists 2.
  assert (Z : forall o, phys 1 (cubic 0 0 0 0 0) o = 0).
  { intros o. unfold phys. rewrite pow1. destruct o as [|[|[|[|o]]]]; cbn; field. }
  split; [|split].
  - intros c H. cbn in H. replace (0 / 2) with 0 in H by field. rewrite tan_0 in H. unfold term_constraint in H.
    repeat (destruct H as [<- | H]; [cbn; lra|]). contradiction.
  - unfold steer_signals. cbn [removelast middle last]. rewrite !Z, (small_true (1/10000) 0) by lra. cbn [andb].
    assert (E : small (1/10000) (cubic 1 0 0 0 0 0%nat) = false) by (apply small_false; cbn; lra).
    rewrite E. cbn [andb app].
    replace (steer_rate 1 1 (cubic 1 0 0 0 0) (cubic 0 0 (1/2) 0 0)) with 2 by (unfold steer_rate; cbn; field).
    instantiate (2 := [_]). reflexivity.
  - unfold arrived, vsub. cbn [combine map fst snd].
    match goal with |- context[py_or ?b _] => destruct b end; cbn [py_or py_num]; [unfold gtb; destruct (Rlt_dec (1/10) 1); [reflexivity|lra]|].
    unfold til_V. cbv beta iota. rewrite !Z. replace (0 * (1 + 0 ^ 2)) with 0 by ring.
    assert (norm [0; 2] = 2) as ->.
    { unfold norm. cbn [fold_right]. replace (0 * 0 + (2 * 2 + 0)) with (2 ^ 2) by ring. apply sqrt_pow2. lra. }
    unfold gtb. destruct (Rlt_dec (1/10) 2); [reflexivity|lra].
 Qed.
Print Assumptions C78_bicycle_refuted.
