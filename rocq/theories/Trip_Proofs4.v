(** Trips of Bicycle and AGV, and of a Dubins with a trailer. *)
From Coq Require Import Reals List Arith Bool ZArith Lia Lra.
From Verif Require Import Spline_Model Spline_Spec Spline_Proofs Spline_Proofs2 Spline_Proofs3 Splop_Model Splop_Spec Splop_Proofs Splop_Proofs2 Splop_Proofs3
  Angle_Model Vehicle_Model Vehicle_Spec Vehicle_Proofs Vehicle_Proofs2 Wheel_Model Wheel_Proofs Wheel_Proofs3 Lift_Model Lift_Spec Lift_Proofs Lift_Proofs2 Lift_Proofs3 Lift_Proofs4
  Loop_Proofs4 Quad_Model Quad_Proofs Trip_Model Trip_Spec Trip_Proofs Trip_Proofs2 Trip_Proofs3.
Import ListNotations.
Local Open Scope R_scope.

Lemma regular_less : forall n m s, (m <= n)%nat -> regular n s -> regular m s.
Proof.
  intros n m s L (U & D & M). split; [exact U|]. split; [lia|]. intros t It. pose proof (unit_sorted _ U) as ND.
  specialize (M t It). apply mult_le_cnt in M; [|exact ND]. apply mult_le_cnt; [exact ND|]. lia.
Qed.

(** ** Bicycle (sgn = 1) and AGV (sgn = -1) *)
Lemma steer_local : forall sgn L lo hi (v tg : R -> jet) t, sgn = 1 \/ sgn = -1 -> lo <= t <= hi ->
  smooth lo hi v 0 -> smooth lo hi tg 0 -> smooth lo hi tg 1 -> 0 < v t 0%nat ->
  deriv_in lo hi (fun u => steer_angle sgn L (v u) (tg u)) t (steer_rate sgn L (v t) (tg t)).
Proof.
  intros sgn L lo hi v tg t SG It S0 S1 S2 VP. unfold steer_angle.
  pose proof (num_deriv sgn L lo hi tg t It S2) as N. pose proof (den_deriv lo hi v tg t It S0 S1) as D.
  pose proof (den_pos (v t) (tg t) VP) as DP. unfold num in N. unfold den in D, DP.
  eapply deriv_eq; [apply (deriv_atan2 lo hi t (fun u => sgn * 2 * tg u 1%nat * L) (fun u => v u 0%nat * (1 + tg u 0%nat ^ 2) ^ 2) _ _ It (or_introl DP) N D)|].
  assert (S2' : sgn ^ 2 = 1) by (destruct SG as [-> | ->]; ring).
  unfold steer_rate.
  assert (E : (v t 0%nat * (1 + tg t 0%nat ^ 2) ^ 2) ^ 2 + (sgn * 2 * tg t 1%nat * L) ^ 2 = v t 0%nat ^ 2 * (1 + tg t 0%nat ^ 2) ^ 4 + (2 * tg t 1%nat * L) ^ 2).
  { replace ((sgn * 2 * tg t 1%nat * L) ^ 2) with (sgn ^ 2 * (2 * tg t 1%nat * L) ^ 2) by ring. rewrite S2'. ring. }
  rewrite E. unfold Rdiv. f_equal. ring.
Qed.
Lemma bicycle_fits : forall X p sgn L vmax amax dmin dmax ddmin ddmax T, regular 1 (X 0%nat) -> regular 2 (X 1%nat) ->
  forall c, In c (bicycle_constraints sgn L vmax amax dmin dmax ddmin ddmax T) -> fits (placed X p) (cexpr c) /\ mentions (cexpr c) = true.
Proof.
  intros X p sgn L vmax amax dmin dmax ddmin ddmax T R0 R1 c Hc.
  assert (F00 : fits (placed X p) (SV 0 0)) by exact (regular_fits 1 X 0 0 R0 (le_S _ _ (le_n 0))).
  assert (F01 : fits (placed X p) (SV 0 1)) by exact (regular_fits 1 X 0 1 R0 (le_n 1)).
  assert (F10 : fits (placed X p) (SV 1 0)) by (apply (regular_fits 2 X 1 0 R1); lia).
  assert (F11 : fits (placed X p) (SV 1 1)) by (apply (regular_fits 2 X 1 1 R1); lia).
  assert (F12 : fits (placed X p) (SV 1 2)) by (apply (regular_fits 2 X 1 2 R1); lia).
  unfold bicycle_constraints, steer_rate_expr, steer_rate_den in Hc. cbn [In] in Hc.
  repeat (destruct Hc as [<-|Hc]; [split; [cbn [le0 cexpr]; fit|reflexivity]|]). destruct Hc.
Qed.

Theorem bicycle_trip : forall sgn L vmax amax dmin dmax ddmin ddmax T t0 x0 y0 th0 d0 V0 gx gy gth X p,
  sgn = 1 \/ sgn = -1 -> 0 < L -> 0 < T -> 0 <= t0 <= T ->
  - PI < th0 < PI -> - PI < gth < PI -> - (PI/2) < d0 < PI/2 -> - (PI/2) < dmin < PI/2 -> - (PI/2) < dmax < PI/2 ->
  1/10000 < V0 / (1 + tan (th0 / 2) ^ 2) ->
  regular 1 (X 0%nat) -> regular 2 (X 1%nat) -> wheel_position 0 X (x0, y0) t0 T = Some p ->
  let Y := placed X p in
  solved 0 Y (bicycle_constraints sgn L vmax amax dmin dmax ddmin ddmax T) ->
  starts 0 Y (t0 / T) (bicycle_init sgn L th0 d0 V0 T) -> stops 0 Y (bicycle_term (gx, gy, gth) T) ->
  let x t := call (fst p) (t / T) in let y t := call (snd p) (t / T) in
  let th t := 2 * atan (call (X 1%nat) (t / T)) in
  let V t := call (X 0%nat) (t / T) * (1 + call (X 1%nat) (t / T) ^ 2) in
  exists w a delta rate : R -> R,
    (x t0, y t0, th t0) = (x0, y0, th0) /\ V t0 = V0 /\ delta t0 = d0 /\
    (x T, y T, th T) = (gx, gy, gth) /\ (V T, w T) = (0, 0) /\
    drives T x y th V w /\
    forall t, 0 <= t <= T -> deriv_in 0 T V t (a t) /\ 0 <= V t <= vmax /\ a t <= amax /\
      (0 < V t -> w t = sgn * (V t / L) * tan (delta t) /\ deriv_in 0 T delta t (rate t) /\
                  dmin <= delta t <= dmax /\ ddmin <= rate t <= ddmax).
Proof.
  intros sgn L vmax amax dmin dmax ddmin ddmax T t0 x0 y0 th0 d0 V0 gx gy gth X p SG LP P I0 A0 AT AD Amin Amax FV R0 R1 E Y S Sin Sout x y th V.
  destruct (wheel_track 0 X x0 y0 t0 T p (Rle_refl 0) P I0 (regular_less 1 0 _ (le_S _ _ (le_n 0)) R0) (regular_less 2 0 _ (le_S _ _ (le_S _ _ (le_n 0))) R1) E) as (Ux & Uy & St & vx & vy & M).
  fold x y th V in M, St.
  set (jv := fun t => phys T (jets X (t / T) 0%nat)). set (jt := fun t => phys T (jets X (t / T) 1%nat)).
  assert (TH : forall t, th t = tgtheta (jt t)) by (intros t; unfold th, jt; rewrite tgtheta_atan, phys0; reflexivity).
  assert (VV : forall t, V t = til_V (jv t) (jt t)) by (intros t; unfold V, jv, jt, til_V; rewrite !phys0; reflexivity).
  exists (fun t => tgdtheta (jt t)), (fun t => dubins_acc (jv t) (jt t)), (fun t => steer_angle sgn L (jv t) (jt t)), (fun t => steer_rate sgn L (jv t) (jt t)).
  assert (Q0 : 0 <= t0 / T <= 1) by (apply unit_time; assumption).
  assert (T1 : T / T = 1) by (field; lra).
  assert (F00 : fits Y (SV 0 0)) by exact (regular_fits 1 X 0 0 R0 (le_S _ _ (le_n 0))).
  assert (F01 : fits Y (SV 0 1)) by exact (regular_fits 1 X 0 1 R0 (le_n 1)).
  assert (F10 : fits Y (SV 1 0)) by (apply (regular_fits 2 X 1 0 R1); lia).
  assert (F11 : fits Y (SV 1 1)) by (apply (regular_fits 2 X 1 1 R1); lia).
  assert (F12 : fits Y (SV 1 2)) by (apply (regular_fits 2 X 1 2 R1); lia).
  assert (HI : holds (jets Y (t0 / T)) (map init_constraint (bicycle_init sgn L th0 d0 V0 T))).
  { apply (starts_holds 0); [apply Rle_refl|exact Q0| |exact Sin]. intros tup Hin. unfold bicycle_init in Hin. cbn [In] in Hin.
    destruct Hin as [<-|[<-|[<-|[<-|[]]]]]; do 3 eexists; (split; [reflexivity|split; [fit|apply drift_0]]). }
  apply (bicycle_init_ok sgn L SG LP th0 d0 V0 T (jets Y (t0 / T)) P A0 AD FV) in HI. destruct HI as (H1 & H2 & H3).
  change (jets Y (t0 / T) 0%nat) with (jets X (t0 / T) 0%nat) in *. change (jets Y (t0 / T) 1%nat) with (jets X (t0 / T) 1%nat) in *.
  fold (jt t0) in H1, H2, H3. fold (jv t0) in H2, H3.
  assert (HT : forall i o r, In (SV i o, r) (bicycle_term (gx, gy, gth) T) -> jets Y 1 i o = r) by (intros i o r; apply (stops_at 0 Y _ i o r Sout)).
  assert (SV0 : smooth 0 T jv 0) by (apply (regular_phys 1); [exact P|exact R0|lia]).
  assert (ST0 : smooth 0 T jt 0) by (apply (regular_phys 2); [exact P|exact R1|lia]).
  assert (ST1 : smooth 0 T jt 1) by (apply (regular_phys 2); [exact P|exact R1|lia]).
  split; [|split; [|split; [|split; [|split; [|split]]]]].
  - assert (SA : x t0 = x0) by exact (f_equal fst St). assert (SB : y t0 = y0) by exact (f_equal snd St).
    rewrite SA, SB, TH, H1. reflexivity.
  - rewrite VV. exact H2.
  - exact H3.
  - assert (Ex : x T = gx) by (unfold x; rewrite T1; apply (HT 2%nat 0%nat gx); cbn; auto).
    assert (Ey : y T = gy) by (unfold y; rewrite T1; apply (HT 3%nat 0%nat gy); cbn; auto).
    assert (Et : th T = gth).
    { unfold th. rewrite T1. apply half_iff; [exact AT|]. apply (HT 1%nat 0%nat (tan (gth / 2))). cbn; auto. }
    rewrite Ex, Ey, Et. reflexivity.
  - assert (E0 : call (X 0%nat) 1 = 0) by (apply (HT 0%nat 0%nat 0); cbn; tauto).
    assert (E1 : call (derivative (X 1%nat) 1) 1 = T * 0) by (apply (HT 1%nat 1%nat (T * 0)); cbn; tauto).
    f_equal.
    + unfold V. rewrite T1, E0. ring.
    + unfold jt. rewrite tgdtheta_phys by exact P. unfold jets. rewrite T1, E1. unfold Rdiv. ring.
  - intros t It. destruct (M t It) as (M1 & M2 & M3 & M4). rewrite !drift_0 in M3, M4. apply abs_le0 in M3, M4.
    rewrite M3 in M1. rewrite M4 in M2. split; [exact M1|]. split; [exact M2|].
    apply (deriv_ext 0 T (fun u => tgtheta (jt u))); [exact It|intros u _; symmetry; apply TH|].
    apply theta_deriv; assumption.
  - intros t It. pose proof (unit_time t T P It) as Q.
    assert (H : holds (jets Y (t / T)) (bicycle_constraints sgn L vmax amax dmin dmax ddmin ddmax T)).
    { apply (lift_exact Y); [apply (bicycle_fits X p); assumption|exact S|exact Q]. }
    assert (HV : V t <= vmax).
    { pose proof (H _ (or_introl eq_refl)) as [_ K]. cbn in K. change (jets Y (t / T) 0%nat 0%nat) with (call (X 0%nat) (t / T)) in K.
      change (jets Y (t / T) 1%nat 0%nat) with (call (X 1%nat) (t / T)) in K. unfold V. lra. }
    assert (HA : dubins_acc (jv t) (jt t) <= amax).
    { pose proof (H _ (or_intror (or_introl eq_refl))) as [_ K]. cbn [le0 cexpr chi sval] in K.
      change (jets Y (t / T) 0%nat) with (jets X (t / T) 0%nat) in K. change (jets Y (t / T) 1%nat) with (jets X (t / T) 1%nat) in K.
      unfold dubins_acc, jv, jt. rewrite !phys0, !phys1. set (j0 := jets X (t / T) 0%nat) in *. set (j1 := jets X (t / T) 1%nat) in *.
      apply (Rmult_le_reg_r T); [exact P|].
      replace ((j0 1%nat / T * (1 + j1 0%nat ^ 2) + j0 0%nat * (2 * j1 0%nat * (j1 1%nat / T))) * T)
        with (j0 1%nat * (1 + j1 0%nat ^ 2) + 2 * j0 0%nat * j1 0%nat * j1 1%nat) by (field; lra). lra. }
    assert (H0 : 0 <= call (X 0%nat) (t / T)).
    { pose proof (H _ (or_intror (or_intror (or_intror (or_intror (or_intror (or_intror (or_introl eq_refl)))))))) as [_ K]. cbn in K.
      change (jets Y (t / T) 0%nat 0%nat) with (call (X 0%nat) (t / T)) in K. lra. }
    split; [|split; [|split; [exact HA|]]].
    + apply (deriv_ext 0 T (fun u => til_V (jv u) (jt u))); [exact It|intros u _; symmetry; apply VV|].
      apply dubins_acc_ok; assumption.
    + split; [unfold V; apply Rmult_le_pos; [exact H0|nra]|exact HV].
    + intros VP. assert (VP' : 0 < call (X 0%nat) (t / T)).
      { destruct H0 as [H0|H0]; [exact H0|]. unfold V in VP. rewrite <- H0 in VP. lra. }
      assert (VJ : 0 < jv t 0%nat) by (unfold jv; rewrite phys0; exact VP').
      split; [|split; [apply steer_local; assumption|]].
      * rewrite angle_atan by exact VJ. rewrite tan_atan, VV. unfold tgdtheta, til_V, num, den.
        pose proof (one_sq (jt t 0%nat)) as O1.
        transitivity ((sgn * sgn) * (2 * jt t 1%nat / (1 + jt t 0%nat ^ 2))); [destruct SG as [-> | ->]; ring|]. field. lra.
      * destruct (proj1 (bicycle_limits sgn L SG vmax amax dmin dmax ddmin ddmax T (jets Y (t / T)) P Amin Amax VP') H) as (_ & _ & K1 & K2).
        split; [exact K1|exact K2].
Qed.

(** ** a trailer behind a Dubins *)
Lemma shift_build : forall tol X e, build tol X (shift 1 e) = build tol (leading X) e.
Proof.
  intros tol X e. induction e as [i o|r|a IHa b IHb|a IHa b IHb|a IHa b IHb|a IHa|a IHa n]; cbn [shift build];
    rewrite ?IHa, ?IHb; try reflexivity.
  replace (i + 1)%nat with (S i) by lia. reflexivity.
Qed.
Lemma shift_solved : forall tol X cs, solved tol X (map (shift_con 1) cs) -> solved tol (leading X) cs.
Proof.
  intros tol X cs S c Hc. pose proof (S (shift_con 1 c) (in_map _ _ _ Hc)) as K.
  unfold shift_con in K. cbn [cexpr clo chi] in K. rewrite shift_build in K. exact K.
Qed.
Lemma shift_starts : forall tol X tau l, starts tol X tau (map (map (shift 1)) l) -> 
  (forall tup, In tup l -> (2 <= length tup)%nat) -> starts tol (leading X) tau l.
Proof.
  intros tol X tau l S Len tup Hin. destruct (S _ (in_map _ _ _ Hin)) as (s & r & B & Q & V). specialize (Len tup Hin).
  destruct tup as [|a [|b rest]]; cbn in Len; try lia. cbn [map nth] in *. rewrite shift_build in B.
  exists s, r. split; [exact B|]. split; [|exact V]. cbn [nth]. destruct b; cbn [shift] in Q; try discriminate. exact Q.
Qed.
Lemma shift_stops : forall tol X l, stops tol X (map (fun c => (shift 1 (fst c), snd c)) l) -> stops tol (leading X) l.
Proof.
  intros tol X l S c Hc. destruct (S _ (in_map _ _ _ Hc)) as (s & B & V). cbn [fst snd] in B, V. rewrite shift_build in B. exists s. auto.
Qed.
Lemma solved_app : forall tol X a b, solved tol X (a ++ b) -> solved tol X a /\ solved tol X b.
Proof. intros tol X a b S. split; intros c Hc; apply S, in_or_app; auto. Qed.

Theorem trailer_trip : forall l tmin tmax vmax wmin wmax T t0 x0 y0 thtr0 th0 V0 w0 gx gy gth thT X p, 0 < l -> 0 < T -> 0 <= t0 <= T ->
  - PI < thtr0 < PI -> - PI < th0 < PI -> - PI < gth < PI -> - PI < tmin <= 0 -> 0 <= tmax < PI ->
  regular 1 (X 0%nat) -> regular 0 (X 1%nat) -> regular 1 (X 2%nat) -> wheel_position 0 (leading X) (x0, y0) t0 T = Some p ->
  let Y := trailed X p in
  solved 0 Y (trailer_constraints l tmin tmax vmax wmin wmax T) ->
  starts 0 Y (t0 / T) (trailer_init l thtr0 th0 V0 w0 T) -> stops 0 Y (trailer_term thT (gx, gy, gth)) ->
  let x t := call (fst p) (t / T) in let y t := call (snd p) (t / T) in
  let th t := 2 * atan (call (X 2%nat) (t / T)) in
  let V t := call (X 1%nat) (t / T) * (1 + call (X 2%nat) (t / T) ^ 2) in
  let thtr t := 2 * atan (call (X 0%nat) (t / T)) in
  let xtr t := x t - l * cos (thtr t) in let ytr t := y t - l * sin (thtr t) in
  exists w wtr : R -> R,
    (x t0, y t0, th t0, thtr t0) = (x0, y0, th0, thtr0) /\ (V t0, w t0) = (V0, w0) /\
    (x T, y T, th T) = (gx, gy, gth) /\ (V T, w T) = (0, 0) /\
    (forall g, thT = Some g -> - PI < g < PI -> thtr T = g) /\
    drives T x y th V w /\
    forall t, 0 <= t <= T ->
      0 <= V t <= vmax /\ wmin <= w t <= wmax /\
      deriv_in 0 T thtr t (wtr t) /\ Rabs (l * wtr t - V t * sin (th t - thtr t)) <= 1 / 1000 /\
      (exists vx vy, deriv_in 0 T xtr t vx /\ deriv_in 0 T ytr t vy /\
         Rabs (- sin (thtr t) * vx + cos (thtr t) * vy) <= 1 / 1000 /\
         cos (thtr t) * vx + sin (thtr t) * vy = V t * cos (th t - thtr t)) /\
      (0 <= th t * thtr t -> tmin <= th t - thtr t <= tmax).
Proof.
  intros l tmin tmax vmax wmin wmax T t0 x0 y0 thtr0 th0 V0 w0 gx gy gth thT X p LP P I0 A0 A1 AT Amin Amax R0 R1 R2 E Y S Sin Sout x y th V thtr xtr ytr.
  destruct (solved_app _ _ _ _ S) as [Sown Sveh].
  assert (SD : solved 0 (placed (leading X) p) (dubins_constraints vmax wmin wmax T)) by (apply (shift_solved 0 Y), Sveh).
  assert (SI : starts 0 (placed (leading X) p) (t0 / T) (dubins_init th0 V0 w0 T)).
  { apply (shift_starts 0 Y). - intros tup Hin. apply Sin. right. exact Hin.
    - intros tup Hin. cbn in Hin. destruct Hin as [<-|[<-|[<-|[]]]]; cbn; lia. }
  assert (SO : stops 0 (placed (leading X) p) (dubins_term (gx, gy, gth))).
  { apply (shift_stops 0 Y). intros c Hc. apply Sout. unfold trailer_term. apply in_or_app. right. exact Hc. }
  destruct (dubins_trip_exact vmax wmin wmax T t0 x0 y0 th0 V0 w0 gx gy gth (leading X) p P I0 A1 AT R1 R2 E SD SI SO) as (w & H1 & H2 & H3 & H4 & D & L).
  set (jt := fun t => phys T (jets X (t / T) 0%nat)).
  assert (TH : forall t, thtr t = tgtheta (jt t)) by (intros t; unfold thtr, jt; rewrite tgtheta_atan, phys0; reflexivity).
  exists w, (fun t => tgdtheta (jt t)).
  assert (Q0 : 0 <= t0 / T <= 1) by (apply unit_time; assumption).
  assert (T1 : T / T = 1) by (field; lra).
  assert (F00 : fits Y (SV 0 0)) by (apply (regular_fits 1 X 0 0 R0); lia).
  assert (F01 : fits Y (SV 0 1)) by (apply (regular_fits 1 X 0 1 R0); lia).
  assert (F10 : fits Y (SV 1 0)) by (apply (regular_fits 0 X 1 0 R1); lia).
  assert (F20 : fits Y (SV 2 0)) by (apply (regular_fits 1 X 2 0 R2); lia).
  split; [|split; [exact H2|split; [exact H3|split; [exact H4|split; [|split; [exact D|]]]]]].
  - assert (HI : holds (jets Y (t0 / T)) (map init_constraint [ [SV 0 0; SN (tan (thtr0 / 2))] ])).
    { intros c [<-|[]].
      assert (K : holds (jets Y (t0 / T)) (map init_constraint [[SV 0 0; SN (tan (thtr0 / 2)); SV 0 1; SN (T * (1/2 * V0 / l * sin (th0 - thtr0) * (1 + tan (thtr0 / 2) ^ 2)))]])).
      { apply (starts_holds 0); [apply Rle_refl|exact Q0| |].
        - intros tup [<-|[]]. do 3 eexists. split; [reflexivity|]. split; [exact F00|apply drift_0].
        - intros tup [<-|[]]. apply Sin. left. reflexivity. }
      exact (K _ (or_introl eq_refl)). }
    pose proof (HI _ (or_introl eq_refl)) as [K1 K2]. cbn [init_constraint nth cexpr clo chi sval] in K1, K2.
    assert (EQ : thtr t0 = thtr0).
    { unfold thtr. apply half_iff; [exact A0|]. change (jets Y (t0 / T) 0%nat 0%nat) with (call (X 0%nat) (t0 / T)) in K1, K2. lra. }
    rewrite EQ. fold x y th in H1. f_equal. exact H1.
  - intros g Eg Ig. unfold thtr. rewrite T1. apply half_iff; [exact Ig|].
    apply (stops_at 0 Y (trailer_term thT (gx, gy, gth)) 0 0 (tan (g / 2)) Sout). rewrite Eg. left. reflexivity.
  - intros t It. pose proof (unit_time t T P It) as Q. destruct (L t It) as [L1 L2].
    assert (H : holds (jets Y (t / T)) (trailer_own l tmin tmax T)).
    { apply (lift_exact Y); [|exact Sown|exact Q]. intros c Hc. unfold trailer_own in Hc. cbn [In] in Hc.
      repeat (destruct Hc as [<-|Hc]; [split; [cbn [le0 cexpr]; fit|reflexivity]|]). destruct Hc. }
    pose proof (trailer_pull l tmin tmax T (jets Y (t / T)) P H) as K. cbv zeta in K.
    change (jets Y (t / T) 0%nat) with (jets X (t / T) 0%nat) in K. change (jets Y (t / T) 1%nat) with (jets X (t / T) 1%nat) in K.
    change (jets Y (t / T) 2%nat) with (jets X (t / T) 2%nat) in K. fold (jt t) in K. rewrite <- TH in K.
    assert (EV : til_V (phys T (jets X (t / T) 1%nat)) (phys T (jets X (t / T) 2%nat)) = V t) by (unfold til_V, V; rewrite !phys0; reflexivity).
    assert (ET : tgtheta (phys T (jets X (t / T) 2%nat)) = th t) by (unfold th; rewrite tgtheta_atan, phys0; reflexivity).
    rewrite EV, ET in K.
    assert (K' : Rabs (l * tgdtheta (jt t) - V t * sin (th t - thtr t)) <= 1 / 1000).
    { apply (Rle_trans _ _ _ K). pose proof (one_sq (jt t 0%nat)) as O1. apply (Rmult_le_reg_r (1 + jt t 0%nat ^ 2)); [exact O1|].
      unfold Rdiv at 1. rewrite Rmult_assoc, Rinv_l by lra. nra. }
    assert (DT : deriv_in 0 T thtr t (tgdtheta (jt t))).
    { apply (deriv_ext 0 T (fun u => tgtheta (jt u))); [exact It|intros u _; symmetry; apply TH|].
      apply theta_deriv; [exact It|]. apply (regular_phys 1); [exact P|exact R0|lia]. }
    split; [exact L1|]. split; [exact L2|]. split; [exact DT|]. split; [exact K'|]. split.
    + assert (D1 : deriv_in 0 T x t (V t * cos (th t))) by apply (D t It). assert (D2 : deriv_in 0 T y t (V t * sin (th t))) by apply (D t It).
      set (q := tgdtheta (jt t)) in *.
      exists (V t * cos (th t) + l * sin (thtr t) * q), (V t * sin (th t) - l * cos (thtr t) * q).
      pose proof (sin2_cos2 (thtr t)) as SC. unfold Rsqr in SC.
      split; [|split; [|split]].
      * eapply deriv_eq; [apply (deriv_minus 0 T t It x (fun u => l * cos (thtr u))); [exact D1|]; apply deriv_scal; [exact It|];
          apply (deriv_comp 0 T t It thtr cos q (- sin (thtr t)) DT); apply derivable_pt_lim_cos|]. ring.
      * eapply deriv_eq; [apply (deriv_minus 0 T t It y (fun u => l * sin (thtr u))); [exact D2|]; apply deriv_scal; [exact It|];
          apply (deriv_comp 0 T t It thtr sin q (cos (thtr t)) DT); apply derivable_pt_lim_sin|]. ring.
      * replace (- sin (thtr t) * (V t * cos (th t) + l * sin (thtr t) * q) + cos (thtr t) * (V t * sin (th t) - l * cos (thtr t) * q))
          with (- (l * q - V t * sin (th t - thtr t))); [rewrite Rabs_Ropp; exact K'|].
        rewrite sin_minus. replace (l * q) with (l * q * (sin (thtr t) * sin (thtr t) + cos (thtr t) * cos (thtr t))) by (rewrite SC; ring). ring.
      * rewrite cos_minus. ring.
    + intros SS. pose proof (trailer_angle_same_side l tmin tmax T (jets Y (t / T)) P Amin Amax H) as G.
      assert (E0 : tgtheta (jets Y (t / T) 0%nat) = thtr t) by (rewrite tgtheta_atan; reflexivity).
      assert (E2 : tgtheta (jets Y (t / T) 2%nat) = th t) by (rewrite tgtheta_atan; reflexivity).
      rewrite E0, E2 in G. apply G.
      change (0 <= call (X 2%nat) (t / T) * call (X 0%nat) (t / T)). unfold th, thtr in SS.
      set (a := call (X 2%nat) (t / T)) in *. set (b := call (X 0%nat) (t / T)) in *.
      assert (SG : forall u, (0 < u -> 0 < atan u) /\ (u < 0 -> atan u < 0)).
      { intros u. split; intros Hu; rewrite <- atan_0; apply atan_increasing, Hu. }
      destruct (Rlt_le_dec a 0) as [Na|Na], (Rlt_le_dec b 0) as [Nb|Nb]; try nra.
      * destruct Nb as [Nb|Nb]; [|nra]. pose proof (proj2 (SG a) Na). pose proof (proj1 (SG b) Nb). exfalso. nra.
      * destruct Na as [Na|Na]; [|nra]. pose proof (proj1 (SG a) Na). pose proof (proj2 (SG b) Nb). exfalso. nra.
Qed.
