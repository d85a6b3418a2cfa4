(** Dubins, Bicycle, AGV: equations of motion and limits. *)
From Coq Require Import Reals List Arith Bool Lia Lra Psatz.
From Verif Require Import Angle_Model Angle_Proofs Vehicle_Model Wheel_Model Vehicle_Spec
  Vehicle_Proofs Vehicle_Proofs2.
Import ListNotations.
Open Scope R_scope.

(** ** half angle *)
Lemma tgtheta_atan : forall tg : jet, tgtheta tg = 2 * atan (tg 0%nat).
Proof.
  intros tg. unfold tgtheta, atan2. destruct (Rlt_dec 0 1); [|lra].
  replace (tg 0%nat / 1) with (tg 0%nat) by field. reflexivity.
Qed.
Lemma cos_2atan : forall a, cos (2 * atan a) = (1 - a ^ 2) / (1 + a ^ 2).
Proof.
  intros a. rewrite cos_2a, cos_atan, sin_atan. pose proof (one_sq a) as P.
  assert (S : sqrt (1 + a²) * sqrt (1 + a²) = 1 + a ^ 2).
  { rewrite sqrt_sqrt; unfold Rsqr; [ring|]. replace (a * a) with (a ^ 2) by ring. lra. }
  assert (Q : 0 < sqrt (1 + a²)) by apply sqrt_one_plus_pos.
  rewrite <- S. field. lra.
Qed.
Lemma sin_2atan : forall a, sin (2 * atan a) = 2 * a / (1 + a ^ 2).
Proof.
  intros a. rewrite sin_2a, cos_atan, sin_atan. pose proof (one_sq a) as P.
  assert (S : sqrt (1 + a²) * sqrt (1 + a²) = 1 + a ^ 2).
  { rewrite sqrt_sqrt; unfold Rsqr; [ring|]. replace (a * a) with (a ^ 2) by ring. lra. }
  assert (Q : 0 < sqrt (1 + a²)) by apply sqrt_one_plus_pos.
  rewrite <- S. field. lra.
Qed.
Lemma theta_deriv : forall lo hi (tg : R -> jet) t, lo <= t <= hi -> smooth lo hi tg 0 ->
  deriv_in lo hi (fun u => tgtheta (tg u)) t (tgdtheta (tg t)).
Proof.
  intros lo hi tg t H S.
  apply (deriv_ext _ _ (fun u => 2 * atan (tg u 0%nat))); [exact H|intros; symmetry; apply tgtheta_atan|].
  unfold tgdtheta. pose proof (one_sq (tg t 0%nat)).
  apply (deriv_eq lo hi t _ (2 * (/ (1 + tg t 0%nat ^ 2) * tg t 1%nat))).
  - apply deriv_scal; [exact H|].
    apply (deriv_comp lo hi t H (fun u => tg u 0%nat) atan); [apply S; exact H|].
    exact (derivable_pt_lim_atan (tg t 0%nat)).
  - field. lra.
Qed.
Lemma til_dx_cos : forall v tg : jet, til_dx (v 0%nat) (tg 0%nat) = til_V v tg * cos (tgtheta tg).
Proof.
  intros v tg. rewrite tgtheta_atan, cos_2atan. unfold til_dx, til_V.
  pose proof (one_sq (tg 0%nat)). field. lra.
Qed.
Lemma til_dy_sin : forall v tg : jet, til_dy (v 0%nat) (tg 0%nat) = til_V v tg * sin (tgtheta tg).
Proof.
  intros v tg. rewrite tgtheta_atan, sin_2atan. unfold til_dy, til_V.
  pose proof (one_sq (tg 0%nat)). field. lra.
Qed.

(** ** integrated position *)
Lemma integrate_start : forall I x0 t T, integrate_once I x0 t T (t / T) = x0.
Proof. intros. unfold integrate_once. ring. Qed.
Lemma integrate_deriv : forall lo hi I x0 t0 T t d, lo <= t <= hi -> deriv_in lo hi I t d ->
  deriv_in lo hi (integrate_once I x0 t0 T) t (T * d).
Proof.
  intros lo hi I x0 t0 T t d H D.
  apply (deriv_ext _ _ (fun u => T * I u + (- (T * I (t0 / T)) + x0))); [exact H|intros; unfold integrate_once; ring|].
  apply (deriv_eq lo hi t _ (T * d + 0)); [|ring].
  apply deriv_plus; [exact H|apply deriv_scal; assumption|apply deriv_const].
Qed.
(** position in physical time from the normalised integral *)
Lemma integrate_phys : forall I x0 t0 T t f, 0 < T -> 0 <= t <= T ->
  (forall tau, 0 <= tau <= 1 -> deriv_in 0 1 I tau (f tau)) ->
  deriv_in 0 T (fun u => integrate_once I x0 t0 T (u / T)) t (f (t / T)).
Proof.
  intros I x0 t0 T t f P H D.
  assert (H' : 0 <= t / T <= 1).
  { split; apply (Rmult_le_reg_l T); try exact P; replace (T * (t / T)) with t by (field; lra); lra. }
  pose proof (integrate_deriv 0 1 I x0 t0 T (t / T) _ H' (D _ H')) as K.
  apply (deriv_rescale 0 1 T) in K; [|exact P|lra].
  replace (T * 0) with 0 in K by ring. replace (T * 1) with T in K by ring.
  replace (T * f (t / T) / T) with (f (t / T)) in K by (field; lra). exact K.
Qed.
(** the position that is constrained (normalised time, factor T) and the one
    that is logged (physical time, factor 1) are the same *)
Lemma integrate_same : forall I J x0 t0 T f, 0 < T -> 0 <= t0 <= T ->
  (forall tau, 0 <= tau <= 1 -> deriv_in 0 1 I tau (f tau)) ->
  (forall t, 0 <= t <= T -> deriv_in 0 T J t (f (t / T))) ->
  forall t, 0 <= t <= T -> integrate_once I x0 t0 T (t / T) = integrate_once J x0 t0 1 t.
Proof.
  intros I J x0 t0 T f P H D E t B.
  apply (antideriv_unique 0 T (fun u => integrate_once I x0 t0 T (u / T)) (integrate_once J x0 t0 1) (fun u => f (u / T))) with (s := t0).
  - intros u U. apply integrate_phys; assumption.
  - intros u U. apply (deriv_eq 0 T u _ (1 * f (u / T))); [|ring]. apply integrate_deriv; [exact U|]. apply E. exact U.
  - exact H.
  - rewrite integrate_start. unfold integrate_once. replace (t0 / 1) with t0 by field. ring.
  - exact B.
Qed.

Lemma phys0 : forall T s, phys T s 0 = s 0%nat.
Proof. intros. unfold phys; cbn [pow]. field. Qed.
Lemma phys1 : forall T s, phys T s 1 = s 1%nat / T.
Proof. intros. unfold phys. rewrite pow_1. reflexivity. Qed.
Lemma phys2 : forall T s, phys T s 2 = s 2%nat / T ^ 2.
Proof. reflexivity. Qed.

(** ** Dubins *)
Lemma dubins_moves : forall lo hi (v tg : R -> jet) x y t, lo <= t <= hi -> smooth lo hi tg 0 ->
  deriv_in lo hi x t (til_dx (v t 0%nat) (tg t 0%nat)) ->
  deriv_in lo hi y t (til_dy (v t 0%nat) (tg t 0%nat)) ->
  moves lo hi [x; y; fun u => tgtheta (tg u)] t
    (dubins_ode [x t; y t; tgtheta (tg t)] (dubins_input (v t) (tg t))).
Proof.
  intros lo hi v tg x y t H S X Y. unfold moves, dubins_ode, dubins_input; cbn [nth].
  rewrite <- til_dx_cos, <- til_dy_sin.
  constructor; [exact X|]. constructor; [exact Y|]. constructor; [apply theta_deriv; assumption|constructor].
Qed.

(** normalised splines seen in physical time *)
Lemma phys_smooth : forall T (s : R -> jet) o, 0 < T -> smooth 0 1 s o ->
  smooth 0 T (fun u => phys T (s (u / T))) o.
Proof.
  intros T s o P S t H.
  assert (H' : 0 <= t / T <= 1).
  { split; apply (Rmult_le_reg_l T); try exact P; replace (T * (t / T)) with t by (field; lra); lra. }
  pose proof (deriv_rescale 0 1 T (fun u => s u o) t (s (t / T) (Datatypes.S o)) P) as K.
  replace (T * 0) with 0 in K by ring. replace (T * 1) with T in K by ring.
  specialize (K H (S _ H')). unfold phys.
  assert (0 < T ^ o) by (apply pow_lt; exact P).
  apply (deriv_ext _ _ (fun u => / T ^ o * s (u / T) o)); [exact H|intros; field; lra|].
  apply (deriv_eq 0 T t _ (/ T ^ o * (s (t / T) (Datatypes.S o) / T))).
  - apply (deriv_scal 0 T t H (fun u => s (u / T) o)). exact K.
  - rewrite <- tech_pow_Rmult. field. lra.
Qed.

Lemma dubins_trajectory : forall T (v tg : R -> jet) Ix Iy x0 y0 t0 t, 0 < T -> 0 <= t <= T ->
  smooth 0 1 tg 0 ->
  (forall tau, 0 <= tau <= 1 -> deriv_in 0 1 Ix tau (til_dx (v tau 0%nat) (tg tau 0%nat))) ->
  (forall tau, 0 <= tau <= 1 -> deriv_in 0 1 Iy tau (til_dy (v tau 0%nat) (tg tau 0%nat))) ->
  let x := fun u => integrate_once Ix x0 t0 T (u / T) in
  let y := fun u => integrate_once Iy y0 t0 T (u / T) in
  let th := fun u => tgtheta (phys T (tg (u / T))) in
  moves 0 T [x; y; th] t
    (dubins_ode [x t; y t; th t] (dubins_input (phys T (v (t / T))) (phys T (tg (t / T))))).
Proof.
  intros T v tg Ix Iy x0 y0 t0 t P H S DX DY x y th.
  apply (dubins_moves 0 T (fun u => phys T (v (u / T))) (fun u => phys T (tg (u / T)))).
  - exact H.
  - apply phys_smooth; assumption.
  - rewrite !phys0.
    apply (integrate_phys Ix x0 t0 T t (fun tau => til_dx (v tau 0%nat) (tg tau 0%nat))); assumption.
  - rewrite !phys0.
    apply (integrate_phys Iy y0 t0 T t (fun tau => til_dy (v tau 0%nat) (tg tau 0%nat))); assumption.
Qed.

Lemma V_pos : forall v tg : R, 0 <= v <-> 0 <= v * (1 + tg ^ 2).
Proof.
  intros v tg. pose proof (one_sq tg) as P. split; intros H.
  - apply Rmult_le_pos; lra.
  - apply (Rmult_le_reg_r (1 + tg ^ 2)); [exact P|]. rewrite Rmult_0_l. exact H.
Qed.
Lemma dubins_limits : forall vmax wmin wmax T env, 0 < T ->
  let V := nth 0 (dubins_input (phys T (env 0%nat)) (phys T (env 1%nat))) 0 in
  let w := nth 1 (dubins_input (phys T (env 0%nat)) (phys T (env 1%nat))) 0 in
  (holds env (dubins_constraints vmax wmin wmax T) <-> 0 <= V <= vmax /\ wmin <= w <= wmax).
Proof.
  intros vmax wmin wmax T env H. cbn [dubins_input nth]. cbv zeta.
  rewrite tgdtheta_phys by exact H. unfold til_V. rewrite !phys0.
  unfold dubins_constraints. open_holds. rewrite turn_hi, turn_lo by exact H.
  rewrite <- V_pos. pose proof (holds_nil env). intuition lra.
Qed.
(** with exact substitution the splines dx, dy are the velocity *)
Lemma dubins_exact : forall env, holds env dubins_exact_substitution <->
  env 4%nat 0%nat = til_dx (env 0%nat 0%nat) (env 1%nat 0%nat) /\
  env 5%nat 0%nat = til_dy (env 0%nat 0%nat) (env 1%nat 0%nat).
Proof.
  intros env. unfold dubins_exact_substitution, til_dx, til_dy. rewrite !holds_cons. unfold holds1; cbn [clo chi cexpr sval].
  pose proof (holds_nil env). intuition lra.
Qed.
(** the logged acceleration is the derivative of the logged speed *)
Lemma dubins_acc_ok : forall lo hi (v tg : R -> jet) t, lo <= t <= hi -> smooth lo hi v 0 -> smooth lo hi tg 0 ->
  deriv_in lo hi (fun u => til_V (v u) (tg u)) t (dubins_acc (v t) (tg t)).
Proof.
  intros lo hi v tg t H SV ST. unfold til_V, dubins_acc.
  apply (deriv_mult lo hi t H (fun u => v u 0%nat) (fun u => 1 + tg u 0%nat ^ 2)); [apply SV; exact H|].
  apply (deriv_eq lo hi t _ (0 + 2 * tg t 0%nat * tg t 1%nat)); [|ring].
  apply (deriv_plus lo hi t H (fun _ => 1) (fun u => tg u 0%nat ^ 2)); [apply deriv_const|].
  apply (deriv_pow2 lo hi t H (fun u => tg u 0%nat)). apply ST; exact H.
Qed.
(** nothing bounds the acceleration of a Dubins vehicle *)
Lemma dubins_acc_free : exists vmax wmin wmax T env, 0 < T /\
  holds env (dubins_constraints vmax wmin wmax T) /\
  forall amax, exists env', holds env' (dubins_constraints vmax wmin wmax T) /\
    amax < dubins_acc (phys T (env' 0%nat)) (phys T (env' 1%nat)).
Proof.
  exists 1, (-1), 1, 1, (fun _ _ => 0). split; [lra|]. split.
  - apply dubins_limits; [lra|]. cbn [dubins_input nth]. rewrite tgdtheta_phys by lra. unfold til_V. rewrite !phys0.
    replace (2 * (0 / 1) / (1 + 0 ^ 2)) with 0 by field. lra.
  - intros amax. exists (fun i o => match i, o with O, 1%nat => amax + 1 | _, _ => 0 end). split.
    + apply dubins_limits; [lra|]. cbn [dubins_input nth]. rewrite tgdtheta_phys by lra. unfold til_V. rewrite !phys0.
      replace (2 * (0 / 1) / (1 + 0 ^ 2)) with 0 by field. lra.
    + unfold dubins_acc. rewrite !phys0, !phys1. lra.
Qed.

(** ** Bicycle and AGV *)
Section Steer.
Variables sgn L : R.
Hypothesis SG : sgn = 1 \/ sgn = -1.
Hypothesis LP : 0 < L.

Definition num (tg : jet) := sgn * 2 * tg 1%nat * L.
Definition den (v tg : jet) := v 0%nat * (1 + tg 0%nat ^ 2) ^ 2.
Lemma den_pos : forall v tg : jet, 0 < v 0%nat -> 0 < den v tg.
Proof. intros v tg H. unfold den. apply Rmult_lt_0_compat; [exact H|]. apply pow_lt, one_sq. Qed.
Lemma angle_atan : forall v tg : jet, 0 < v 0%nat -> steer_angle sgn L v tg = atan (num tg / den v tg).
Proof.
  intros v tg H. unfold steer_angle, atan2. fold (den v tg) (num tg).
  destruct (Rlt_dec 0 (den v tg)) as [P|P]; [reflexivity|]. exfalso. apply P, den_pos, H.
Qed.
Lemma den_deriv : forall lo hi (v tg : R -> jet) t, lo <= t <= hi -> smooth lo hi v 0 -> smooth lo hi tg 0 ->
  deriv_in lo hi (fun u => den (v u) (tg u)) t
   (v t 1%nat * (1 + tg t 0%nat ^ 2) ^ 2 + v t 0%nat * (4 * tg t 0%nat + 4 * tg t 0%nat ^ 3) * tg t 1%nat).
Proof.
  intros lo hi v tg t H S0 S1. unfold den.
  apply (deriv_eq lo hi t _ (v t 1%nat * (1 + tg t 0%nat ^ 2) ^ 2 + v t 0%nat *
            (2 * (1 + tg t 0%nat ^ 2) * (0 + 2 * tg t 0%nat * tg t 1%nat)))); [|ring].
  apply (deriv_mult lo hi t H (fun u => v u 0%nat) (fun u => (1 + tg u 0%nat ^ 2) ^ 2)); [apply S0; exact H|].
  apply (deriv_pow2 lo hi t H (fun u => 1 + tg u 0%nat ^ 2)).
  apply (deriv_plus lo hi t H (fun _ => 1) (fun u => tg u 0%nat ^ 2)); [apply deriv_const|].
  apply (deriv_pow2 lo hi t H (fun u => tg u 0%nat)). apply S1; exact H.
Qed.
Lemma num_deriv : forall lo hi (tg : R -> jet) t, lo <= t <= hi -> smooth lo hi tg 1 ->
  deriv_in lo hi (fun u => num (tg u)) t (sgn * 2 * tg t 2%nat * L).
Proof.
  intros lo hi tg t H S1. unfold num.
  apply (deriv_ext _ _ (fun u => sgn * 2 * L * tg u 1%nat)); [exact H|intros; ring|].
  apply (deriv_eq lo hi t _ (sgn * 2 * L * tg t 2%nat)); [|ring].
  apply (deriv_scal lo hi t H (fun u => tg u 1%nat)). apply S1; exact H.
Qed.
Lemma sgn2 : sgn * sgn = 1.
Proof. destruct SG as [-> | ->]; ring. Qed.
Lemma steer_deriv : forall lo hi (v tg : R -> jet) t, lo <= t <= hi ->
  smooth lo hi v 0 -> smooth lo hi tg 0 -> smooth lo hi tg 1 ->
  (forall u, lo <= u <= hi -> 0 < v u 0%nat) ->
  deriv_in lo hi (fun u => steer_angle sgn L (v u) (tg u)) t (steer_rate sgn L (v t) (tg t)).
Proof.
  intros lo hi v tg t H S0 S1 S2 VP.
  apply (deriv_ext _ _ (fun u => atan (num (tg u) / den (v u) (tg u)))); [exact H| |].
  { intros u U. symmetry. apply angle_atan, VP, U. }
  pose proof (den_pos (v t) (tg t) (VP t H)) as P.
  pose proof (deriv_div lo hi t H (fun u => num (tg u)) (fun u => den (v u) (tg u)) _ _
     ltac:(cbn; lra) (num_deriv lo hi tg t H S2) (den_deriv lo hi v tg t H S0 S1)) as D. cbn beta in D.
  pose proof (deriv_comp lo hi t H _ atan _ _ D (derivable_pt_lim_atan _)) as E. cbn beta in E.
  eapply deriv_eq; [exact E|].
  unfold steer_rate. fold (den (v t) (tg t)). 
  replace (v t 0%nat ^ 2 * (1 + tg t 0%nat ^ 2) ^ 4) with (den (v t) (tg t) ^ 2) by (unfold den; ring).
  set (D0 := den (v t) (tg t)) in *. 
  set (D1 := v t 1%nat * (1 + tg t 0%nat ^ 2) ^ 2 + v t 0%nat * (4 * tg t 0%nat + 4 * tg t 0%nat ^ 3) * tg t 1%nat).
  unfold num.
  assert (Q : 0 < D0 ^ 2 + (2 * tg t 1%nat * L) ^ 2).
  { pose proof (pow2_ge_0 (2 * tg t 1%nat * L)). pose proof (pow_lt D0 2 P). lra. }
  assert (Z : (sgn * 2 * tg t 1%nat * L) * (sgn * 2 * tg t 1%nat * L) = (2 * tg t 1%nat * L) ^ 2).
  { replace (sgn * 2 * tg t 1%nat * L * (sgn * 2 * tg t 1%nat * L)) with ((sgn * sgn) * (2 * tg t 1%nat * L) ^ 2) by ring.
    rewrite sgn2. ring. }
  replace ((sgn * 2 * tg t 1%nat * L / D0) ^ 2)
    with ((2 * tg t 1%nat * L) ^ 2 / D0 ^ 2) by (rewrite <- Z; field; lra).
  field. repeat split; try lra.
Qed.
Lemma bicycle_moves : forall lo hi (v tg : R -> jet) x y t, lo <= t <= hi ->
  smooth lo hi v 0 -> smooth lo hi tg 0 -> smooth lo hi tg 1 ->
  (forall u, lo <= u <= hi -> 0 < v u 0%nat) ->
  deriv_in lo hi x t (til_dx (v t 0%nat) (tg t 0%nat)) ->
  deriv_in lo hi y t (til_dy (v t 0%nat) (tg t 0%nat)) ->
  moves lo hi [x; y; (fun u => tgtheta (tg u)); (fun u => steer_angle sgn L (v u) (tg u))] t
    (bicycle_ode sgn L [x t; y t; tgtheta (tg t); steer_angle sgn L (v t) (tg t)]
       [til_V (v t) (tg t); steer_rate sgn L (v t) (tg t)]).
Proof.
  intros lo hi v tg x y t H S0 S1 S2 VP X Y. unfold moves, bicycle_ode; cbn [nth].
  rewrite <- til_dx_cos, <- til_dy_sin.
  constructor; [exact X|]. constructor; [exact Y|]. constructor.
  - replace (sgn * (til_V (v t) (tg t) / L) * tan (steer_angle sgn L (v t) (tg t))) with (tgdtheta (tg t)).
    + apply theta_deriv; assumption.
    + rewrite angle_atan by (apply VP; exact H). rewrite tan_atan. unfold tgdtheta, til_V, num, den.
      pose proof (VP t H). pose proof (one_sq (tg t 0%nat)).
      transitivity ((sgn * sgn) * (2 * tg t 1%nat / (1 + tg t 0%nat ^ 2))); [rewrite sgn2; ring|].
      field. lra.
  - constructor; [|constructor]. apply steer_deriv; assumption.
Qed.

Lemma atan_le_iff : forall a d, - (PI/2) < d < PI/2 -> (atan a <= d <-> a <= tan d).
Proof.
  intros a d H. split; intros K.
  - destruct (Rle_dec a (tan d)) as [G|G]; [exact G|exfalso].
    assert (M : atan (tan d) < atan a) by (apply atan_increasing; lra).
    rewrite atan_tan in M by exact H. lra.
  - destruct (Req_dec a (tan d)) as [E|E]; [rewrite E, atan_tan by exact H; lra|].
    assert (M : atan a < atan (tan d)) by (apply atan_increasing; lra).
    rewrite atan_tan in M by exact H. lra.
Qed.
Lemma atan_ge_iff : forall a d, - (PI/2) < d < PI/2 -> (d <= atan a <-> tan d <= a).
Proof.
  intros a d H. split; intros K.
  - destruct (Rle_dec (tan d) a) as [G|G]; [exact G|exfalso].
    assert (M : atan a < atan (tan d)) by (apply atan_increasing; lra).
    rewrite atan_tan in M by exact H. lra.
  - destruct (Req_dec a (tan d)) as [E|E]; [rewrite E, atan_tan by exact H; lra|].
    assert (M : atan (tan d) < atan a) by (apply atan_increasing; lra).
    rewrite atan_tan in M by exact H. lra.
Qed.

Lemma bicycle_limits : forall vmax amax dmin dmax ddmin ddmax T env, 0 < T ->
  - (PI/2) < dmin < PI/2 -> - (PI/2) < dmax < PI/2 -> 0 < env 0%nat 0%nat ->
  let v := phys T (env 0%nat) in let tg := phys T (env 1%nat) in
  (holds env (bicycle_constraints sgn L vmax amax dmin dmax ddmin ddmax T) <->
   til_V v tg <= vmax /\ dubins_acc v tg <= amax /\
   dmin <= steer_angle sgn L v tg <= dmax /\ ddmin <= steer_rate sgn L v tg <= ddmax).
Proof.
  intros vmax amax dmin dmax ddmin ddmax T env P DM DX VP v tg.
  assert (VP' : 0 < v 0%nat) by (unfold v; rewrite phys0; exact VP).
  rewrite (angle_atan v tg VP'), atan_le_iff, atan_ge_iff by assumption.
  unfold bicycle_constraints, steer_rate_expr, steer_rate_den. open_holds.
  set (V0 := env 0%nat 0%nat) in *. set (V1 := env 0%nat 1%nat).
  set (a := env 1%nat 0%nat). set (b := env 1%nat 1%nat). set (c := env 1%nat 2%nat).
  pose proof (one_sq a) as A.
  assert (A4 : 0 < (1 + a ^ 2) ^ 2) by (apply pow_lt; exact A).
  assert (T2 : 0 < T ^ 2) by (apply pow_lt; exact P).
  assert (HD : 0 < V0 * (1 + a ^ 2) ^ 2) by (apply Rmult_lt_0_compat; assumption).
  assert (E1 : dubins_acc v tg = (V1 * (1 + a ^ 2) + 2 * V0 * a * b) / T).
  { unfold dubins_acc, v, tg. rewrite !phys0, !phys1. fold V0 V1 a b. field. lra. }
  assert (E2 : num tg / den v tg = (sgn * 2 * b * L) / (V0 * (1 + a ^ 2) ^ 2 * T)).
  { unfold num, den, v, tg. rewrite !phys0, !phys1. fold V0 a b. field. lra. }
  set (N := 2 * L * c * (V0 * (1 + a ^ 2) ^ 2) - 2 * L * b * (V1 * (1 + a ^ 2) ^ 2 + V0 * (4 * a + 4 * a ^ 3) * b)).
  set (M := T ^ 2 * V0 ^ 2 * (1 + a ^ 2) ^ 4 + (2 * L * b) ^ 2).
  assert (MP : 0 < M).
  { unfold M. pose proof (pow2_ge_0 (2 * L * b)). pose proof (pow_lt (1 + a ^ 2) 4 A). pose proof (pow_lt V0 2 VP).
    assert (0 < T ^ 2 * V0 ^ 2 * (1 + a ^ 2) ^ 4) by (apply Rmult_lt_0_compat; [apply Rmult_lt_0_compat|]; assumption). lra. }
  assert (E3 : steer_rate sgn L v tg = (sgn * N) / M).
  { unfold steer_rate, v, tg. rewrite !phys0, !phys1, !phys2. fold V0 V1 a b c. unfold N.
    replace (V0 ^ 2 * (1 + a ^ 2) ^ 4 + (2 * (b / T) * L) ^ 2) with (M / T ^ 2) by (unfold M; field; lra).
    field. lra. }
  assert (E0 : til_V v tg = V0 * (1 + a ^ 2)) by (unfold til_V, v, tg; rewrite !phys0; reflexivity).
  rewrite E0, E1, E2, E3.
  assert (HT : 0 < V0 * (1 + a ^ 2) ^ 2 * T) by (apply Rmult_lt_0_compat; assumption).
  rewrite <- (scaled_hi T), <- (scaled_hi _ _ (tan dmax) HT), <- (scaled_lo _ _ (tan dmin) HT),
    <- (scaled_hi _ _ ddmax MP), <- (scaled_lo _ _ ddmin MP) by assumption.
  pose proof (holds_nil env).
  assert (R1 : forall d, V0 * (1 + a ^ 2) ^ 2 * d * T = V0 * (1 + a ^ 2) ^ 2 * T * d) by (intros; ring).
  rewrite !R1. split; intros K.
  - intuition lra.
  - intuition lra.
Qed.

(** braking is not bounded *)
Lemma bicycle_brake_free : forall vmax amax dmin dmax ddmin ddmax T, 0 < T -> 0 < vmax -> 0 <= amax ->
  dmin <= 0 <= dmax -> - (PI/2) < dmin -> dmax < PI/2 -> ddmin <= 0 <= ddmax ->
  forall a, exists env, 0 < env 0%nat 0%nat /\
    holds env (bicycle_constraints sgn L vmax amax dmin dmax ddmin ddmax T) /\
    dubins_acc (phys T (env 0%nat)) (phys T (env 1%nat)) < a.
Proof.
  intros vmax amax dmin dmax ddmin ddmax T P VM AM D D1 D2 DD a.
  set (env := fun i o => match i, o with O, O => vmax | O, S O => - (T * (Rabs a + 1)) | _, _ => 0 end).
  pose proof PI_RGT_0 as PI0. pose proof (Rabs_pos a) as RA.
  exists env. split; [exact VM|].
  assert (E : dubins_acc (phys T (env 0%nat)) (phys T (env 1%nat)) = - (Rabs a + 1)).
  { unfold dubins_acc. rewrite !phys0, !phys1. cbn. field. lra. }
  split.
  - apply bicycle_limits; try assumption; try lra.
    rewrite E. unfold til_V. rewrite !phys0. cbn [env].
    assert (A0 : steer_angle sgn L (phys T (env 0%nat)) (phys T (env 1%nat)) = 0).
    { rewrite angle_atan by (rewrite phys0; exact VM).
      replace (num (phys T (env 1%nat)) / den (phys T (env 0%nat)) (phys T (env 1%nat))) with 0; [apply atan_0|].
      unfold num, den. rewrite !phys0, !phys1. cbn. field. lra. }
    assert (R0 : steer_rate sgn L (phys T (env 0%nat)) (phys T (env 1%nat)) = 0).
    { unfold steer_rate. rewrite !phys0, !phys1, !phys2. cbn.
      assert (0 < vmax * vmax) by (apply Rmult_lt_0_compat; exact VM). field. split; [lra|].
      replace (vmax ^ 2) with (vmax * vmax) by ring. lra. }
    rewrite A0, R0. repeat split; try lra.
  - rewrite E. pose proof (Rle_abs (- a)) as Q. rewrite Rabs_Ropp in Q. lra.
Qed.
End Steer.
