(** Trips of the quadrotors and of the holonomic vehicles. *)
From Coq Require Import String.
From Coq Require Import Reals List Arith Bool ZArith Lia Lra.
From Verif Require Import Spline_Model Spline_Spec Spline_Proofs Spline_Proofs2 Spline_Proofs3 Splop_Model Splop_Spec Splop_Proofs Splop_Proofs2 Splop_Proofs3
  Angle_Model Vehicle_Model Vehicle_Spec Vehicle_Proofs Vehicle_Proofs2 Wheel_Model Wheel_Proofs Wheel_Proofs3 Lift_Model Lift_Spec Lift_Proofs Lift_Proofs2 Lift_Proofs3 Lift_Proofs4
  Loop_Proofs4 Quad_Model Quad_Proofs Quad_Proofs2 Trip_Model Trip_Spec Trip_Proofs Trip_Proofs2 Trip_Proofs3 Trip_Proofs4.
Import ListNotations.
Local Open Scope R_scope.

(** ** Quadrotor3D *)
Lemma quad3d_dd_fits : forall X k, regular 0 (X 0%nat) -> regular 0 (X 1%nat) -> regular 0 (X 2%nat) -> (k < 3)%nat ->
  fits X (quad3d_dd k) /\ seamless X (quad3d_dd k).
Proof.
  intros X k R0 R1 R2 K.
  pose proof (regular_fits 0 X 0 0 R0 (le_n 0)) as F0. pose proof (regular_fits 0 X 1 0 R1 (le_n 0)) as F1. pose proof (regular_fits 0 X 2 0 R2 (le_n 0)) as F2.
  pose proof (regular_seamless 0 X 0 0 R0 (le_n 0)) as S0. pose proof (regular_seamless 0 X 1 0 R1 (le_n 0)) as S1. pose proof (regular_seamless 0 X 2 0 R2 (le_n 0)) as S2.
  destruct k as [|[|k]]; (split; [fit|fit]).
Qed.
Lemma quad3d_track : forall tol X pos0 vel0 t0 T k m, 0 <= tol -> 0 < T -> 0 <= t0 <= T ->
  regular 0 (X 0%nat) -> regular 0 (X 1%nat) -> regular 0 (X 2%nat) -> (k < 3)%nat ->
  quad3d_axis tol X pos0 vel0 t0 T k = Some m ->
  let pos t := call (fst m) (t / T) in let vel t := call (snd m) (t / T) in
  on_unit (fst m) /\ on_unit (snd m) /\ pos t0 = pos0 k /\ vel t0 = vel0 k /\
  exists acc : R -> R, forall t, 0 <= t <= T ->
    deriv_in 0 T pos t (vel t) /\ deriv_in 0 T vel t (acc t) /\
    Rabs (acc t - sval (jets X (t / T)) (quad3d_dd k)) <= drift tol X (quad3d_dd k).
Proof.
  intros tol X pos0 vel0 t0 T k m Tt P I0 R0 R1 R2 K E pos vel. unfold quad3d_axis in E.
  destruct (quad3d_dd_fits X k R0 R1 R2 K) as [F S].
  destruct (build tol X (quad3d_dd k)) as [[r|dd]|] eqn:B; cbn [spline_of] in E; try discriminate. injection E as <-.
  unfold integrate_twice_spline in *. cbn [fst snd] in *.
  destruct (build_spline tol X _ _ F S B) as [U TD].
  pose proof (integrate_spline_unit dd (vel0 k) t0 T U) as UV. pose proof (integrate_spline_tidy dd (vel0 k) t0 T U TD) as TV.
  split; [apply integrate_spline_unit, UV|]. split; [exact UV|].
  split; [apply integrate_spline_start; assumption|]. split; [apply integrate_spline_start; assumption|].
  exists (fun t => call dd (t / T)). intros t It. pose proof (unit_time t T P It) as Q.
  split; [apply integrate_spline_deriv; assumption|]. split; [apply integrate_spline_deriv; assumption|].
  exact (build_close tol X _ _ (t / T) Tt F Q B).
Qed.
Lemma half_zero : forall a, 2 * atan a = 0 -> a = 0.
Proof. intros a H. rewrite <- (tan_atan a). replace (atan a) with 0 by lra. apply tan_0. Qed.

Theorem quad3d_trip : forall u1min u1max u2min u2max u3min u3max phimin phimax thmin thmax T t0 pos0 vel0 phi0 th0 f0 goal phiT thT X m,
  0 < T -> 0 <= t0 <= T -> - PI < phi0 < PI -> - PI < th0 < PI -> - PI < phiT < PI -> - PI < thT < PI ->
  - PI < phimin < PI -> - PI < phimax < PI -> - PI < thmin < PI -> - PI < thmax < PI ->
  regular 0 (X 0%nat) -> regular 1 (X 1%nat) -> regular 1 (X 2%nat) ->
  (forall k, (k < 3)%nat -> quad3d_axis 0 X pos0 vel0 t0 T k = Some (m k)) ->
  let Y := flown X m in
  solved 0 Y (quad3d_constraints u1min u1max u2min u2max u3min u3max phimin phimax thmin thmax T) ->
  starts 0 Y (t0 / T) (quad3d_init phi0 th0 f0) -> stops 0 Y (quad3d_stop (goal 0%nat) (goal 1%nat) (goal 2%nat) phiT thT) ->
  let pos k t := call (fst (m k)) (t / T) in let vel k t := call (snd (m k)) (t / T) in
  let phi t := 2 * atan (call (X 1%nat) (t / T)) in let th t := 2 * atan (call (X 2%nat) (t / T)) in
  let u1 t := call (X 0%nat) (t / T) * ((1 + call (X 1%nat) (t / T) ^ 2) * (1 + call (X 2%nat) (t / T) ^ 2)) in
  exists u2 u3 : R -> R,
    (forall k, (k < 3)%nat -> pos k t0 = pos0 k /\ vel k t0 = vel0 k) /\ (phi t0, th t0, u1 t0) = (phi0, th0, f0) /\
    (forall k, (k < 3)%nat -> pos k T = goal k /\ vel k T = 0) /\ (phi T, th T) = (phiT, thT) /\
    (phiT = 0 -> thT = 0 -> u1 T = gravity) /\
    forall t, 0 <= t <= T ->
      (forall k, (k < 3)%nat -> deriv_in 0 T (pos k) t (vel k t)) /\
      deriv_in 0 T (vel 0%nat) t (u1 t * sin (th t) * cos (phi t)) /\
      deriv_in 0 T (vel 1%nat) t (- u1 t * sin (phi t)) /\
      deriv_in 0 T (vel 2%nat) t (- gravity + u1 t * cos (phi t) * cos (th t)) /\
      deriv_in 0 T phi t (u2 t) /\ deriv_in 0 T th t (u3 t) /\
      u1min <= u1 t <= u1max /\ u2min <= u2 t <= u2max /\ u3min <= u3 t <= u3max /\
      phimin <= phi t <= phimax /\ thmin <= th t <= thmax.
Proof.
  intros u1min u1max u2min u2max u3min u3max phimin phimax thmin thmax T t0 pos0 vel0 phi0 th0 f0 goal phiT thT X m
    P I0 A0 A1 A2 A3 B0 B1 B2 B3 R0 R1 R2 E Y S Sin Sout pos vel phi th u1.
  pose proof (regular_less 1 0 _ (le_S _ _ (le_n 0)) R1) as R10. pose proof (regular_less 1 0 _ (le_S _ _ (le_n 0)) R2) as R20.
  pose proof (fun k (H : (k < 3)%nat) => quad3d_track 0 X pos0 vel0 t0 T k (m k) (Rle_refl 0) P I0 R0 R10 R20 H (E k H)) as M.
  set (jf := fun t => phys T (jets X (t / T) 0%nat)). set (jp := fun t => phys T (jets X (t / T) 1%nat)). set (jq := fun t => phys T (jets X (t / T) 2%nat)).
  assert (PH : forall t, phi t = tgtheta (jp t)) by (intros t; unfold phi, jp; rewrite tgtheta_atan, phys0; reflexivity).
  assert (TH : forall t, th t = tgtheta (jq t)) by (intros t; unfold th, jq; rewrite tgtheta_atan, phys0; reflexivity).
  assert (U1 : forall t, u1 t = quad3d_f (jf t) (jp t) (jq t)) by (intros t; unfold u1, quad3d_f, jf, jp, jq; rewrite !phys0; reflexivity).
  exists (fun t => tgdtheta (jp t)), (fun t => tgdtheta (jq t)).
  assert (Q0 : 0 <= t0 / T <= 1) by (apply unit_time; assumption).
  assert (T1 : T / T = 1) by (field; lra).
  assert (F00 : fits Y (SV 0 0)) by (apply (regular_fits 0 X 0 0 R0); lia).
  assert (F10 : fits Y (SV 1 0)) by (apply (regular_fits 1 X 1 0 R1); lia).
  assert (F11 : fits Y (SV 1 1)) by (apply (regular_fits 1 X 1 1 R1); lia).
  assert (F20 : fits Y (SV 2 0)) by (apply (regular_fits 1 X 2 0 R2); lia).
  assert (F21 : fits Y (SV 2 1)) by (apply (regular_fits 1 X 2 1 R2); lia).
  assert (HI : holds (jets Y (t0 / T)) (map init_constraint (quad3d_init phi0 th0 f0))).
  { apply (starts_holds 0); [apply Rle_refl|exact Q0| |exact Sin]. intros tup Hin. unfold quad3d_init in Hin. cbn [In] in Hin.
    destruct Hin as [<-|[<-|[<-|[]]]]; do 3 eexists; (split; [reflexivity|split; [fit|apply drift_0]]). }
  apply (quad3d_init_ok phi0 th0 f0 T (jets Y (t0 / T)) P A0 A1) in HI. destruct HI as (H1 & H2 & H3).
  change (jets Y (t0 / T) 0%nat) with (jets X (t0 / T) 0%nat) in *. change (jets Y (t0 / T) 1%nat) with (jets X (t0 / T) 1%nat) in *.
  change (jets Y (t0 / T) 2%nat) with (jets X (t0 / T) 2%nat) in *.
  fold (jp t0) in H1, H3. fold (jq t0) in H2, H3. fold (jf t0) in H3.
  assert (HT : forall i o r, In (SV i o, r) (quad3d_stop (goal 0%nat) (goal 1%nat) (goal 2%nat) phiT thT) -> jets Y 1 i o = r) by (intros i o r; apply (stops_at 0 Y _ i o r Sout)).
  assert (EP : phi T = phiT) by (unfold phi; rewrite T1; apply half_iff; [exact A2|]; apply (HT 1%nat 0%nat (tan (phiT / 2))); cbn; tauto).
  assert (ET : th T = thT) by (unfold th; rewrite T1; apply half_iff; [exact A3|]; apply (HT 2%nat 0%nat (tan (thT / 2))); cbn; tauto).
  split; [|split; [|split; [|split; [|split]]]].
  - intros k K. destruct (M k K) as (_ & _ & M1 & M2 & _). split; [exact M1|exact M2].
  - rewrite PH, TH, U1, H1, H2, H3. reflexivity.
  - intros k K. unfold pos, vel. rewrite T1.
    destruct k as [|[|[|k]]]; [| | |lia]; (split; [|]).
    + apply (HT 3%nat 0%nat); cbn; tauto.
    + apply (HT 6%nat 0%nat); cbn; tauto.
    + apply (HT 4%nat 0%nat); cbn; tauto.
    + apply (HT 7%nat 0%nat); cbn; tauto.
    + apply (HT 5%nat 0%nat); cbn; tauto.
    + apply (HT 8%nat 0%nat); cbn; tauto.
  - rewrite EP, ET. reflexivity.
  - intros Z1 Z2. unfold u1. rewrite T1. rewrite Z1 in EP. rewrite Z2 in ET. unfold phi in EP. unfold th in ET. rewrite T1 in EP, ET.
    apply half_zero in EP, ET. rewrite EP, ET.
    assert (EF : call (X 0%nat) 1 = gravity) by (apply (HT 0%nat 0%nat); cbn; tauto). rewrite EF. ring.
  - intros t It. pose proof (unit_time t T P It) as Q.
    assert (H : holds (jets Y (t / T)) (quad3d_constraints u1min u1max u2min u2max u3min u3max phimin phimax thmin thmax T)).
    { apply (lift_exact Y); [|exact S|exact Q]. intros c Hc. unfold quad3d_constraints in Hc. cbn [In] in Hc.
      repeat (destruct Hc as [<-|Hc]; [split; [cbn [le0 cexpr]; fit|reflexivity]|]). destruct Hc. }
    apply (quad3d_limits u1min u1max u2min u2max u3min u3max phimin phimax thmin thmax T (jets Y (t / T)) P B0 B1 B2 B3) in H.
    change (jets Y (t / T) 0%nat) with (jets X (t / T) 0%nat) in H. change (jets Y (t / T) 1%nat) with (jets X (t / T) 1%nat) in H.
    change (jets Y (t / T) 2%nat) with (jets X (t / T) 2%nat) in H. fold (jp t) (jq t) (jf t) in H.
    destruct H as (L1 & L2 & L3 & L4 & L5). unfold quad3d_input in L1, L2, L3. cbn [nth] in L1, L2, L3.
    destruct (quad3d_acc (jf t) (jp t) (jq t)) as (C1 & C2 & C3). rewrite <- PH, <- TH, <- U1 in C1, C3. rewrite <- PH, <- U1 in C2.
    unfold jf, jp, jq in C1, C2, C3. rewrite !phys0 in C1, C2, C3.
    assert (DV : forall k, (k < 3)%nat -> deriv_in 0 T (pos k) t (vel k t) /\ deriv_in 0 T (vel k) t (sval (jets X (t / T)) (quad3d_dd k))).
    { intros k K. destruct (M k K) as (_ & _ & _ & _ & acc & M5). destruct (M5 t It) as (D1 & D2 & D3).
      rewrite drift_0 in D3. apply abs_le0 in D3. rewrite D3 in D2. split; [exact D1|exact D2]. }
    split; [intros k K; apply (DV k K)|].
    split; [rewrite <- C1; apply (DV 0%nat); lia|]. split; [rewrite <- C2; apply (DV 1%nat); lia|]. split; [rewrite <- C3; apply (DV 2%nat); lia|].
    split; [|split].
    + apply (deriv_ext 0 T (fun u => tgtheta (jp u))); [exact It|intros u _; symmetry; apply PH|].
      apply theta_deriv; [exact It|]. apply (regular_phys 1); [exact P|exact R1|lia].
    + apply (deriv_ext 0 T (fun u => tgtheta (jq u))); [exact It|intros u _; symmetry; apply TH|].
      apply theta_deriv; [exact It|]. apply (regular_phys 1); [exact P|exact R2|lia].
    + rewrite PH, TH, U1. exact (conj L1 (conj L2 (conj L3 (conj L4 L5)))).
Qed.

(** ** planar Quadrotor *)
Lemma moves_nth : forall lo hi fs t rhs k, moves lo hi fs t rhs -> (k < length fs)%nat ->
  deriv_in lo hi (nth k fs (fun _ => 0)) t (nth k rhs 0).
Proof.
  intros lo hi fs t rhs k H. revert k. induction H as [|f d fs rhs D H IH]; intros k K; cbn in K; [lia|].
  destruct k as [|k]; [exact D|]. apply IH. lia.
Qed.
Lemma jet_chain : forall n X i o T t, 0 < T -> regular n (X i) -> (o < n)%nat -> 0 <= t <= T ->
  deriv_in 0 T (fun u => phys T (jets X (u / T) i) o) t (phys T (jets X (t / T) i) (S o)).
Proof. intros n X i o T t P R O It. exact (regular_phys n X i o T P R O t It). Qed.

Theorem quad_trip : forall u1min u1max u2min u2max T t0 px py vx vy ax ay gx gy X, 0 < T -> 0 <= t0 <= T -> 0 < u1min -> 0 <= u1max ->
  regular 3 (X 0%nat) -> regular 3 (X 1%nat) ->
  solved 0 X (quad_constraints u1min u1max u2min u2max T) ->
  starts 0 X (t0 / T) (quad_init (px, py) (vx, vy) (ax, ay) T) -> stops 0 X (quad_term (gx, gy)) ->
  let x t := call (X 0%nat) (t / T) in let y t := call (X 1%nat) (t / T) in
  exists dx dy ddx ddy theta u1 u2 : R -> R,
    [x t0; y t0; dx t0; dy t0; ddx t0; ddy t0] = [px; py; vx; vy; ax; ay] /\
    [x T; y T; dx T; dy T; ddx T; ddy T; theta T; u1 T; u2 T] = [gx; gy; 0; 0; 0; 0; 0; gravity; 0] /\
    forall t, 0 <= t <= T ->
      deriv_in 0 T x t (dx t) /\ deriv_in 0 T y t (dy t) /\ deriv_in 0 T dx t (ddx t) /\ deriv_in 0 T dy t (ddy t) /\
      ddx t = u1 t * sin (theta t) /\ ddy t = u1 t * cos (theta t) - gravity /\
      (0 < ddy t + gravity \/ ddx t <> 0 -> deriv_in 0 T theta t (u2 t)) /\
      u1min <= u1 t <= u1max /\ u2min <= u2 t <= u2max.
Proof.
  intros u1min u1max u2min u2max T t0 px py vx vy ax ay gx gy X P I0 UP UM R0 R1 S Sin Sout x y.
  set (jx := fun t => phys T (jets X (t / T) 0%nat)). set (jy := fun t => phys T (jets X (t / T) 1%nat)).
  exists (fun t => jx t 1%nat), (fun t => jy t 1%nat), (fun t => jx t 2%nat), (fun t => jy t 2%nat),
    (fun t => quad_theta (jx t) (jy t)), (fun t => quad_u1 (jx t) (jy t)), (fun t => quad_u2 (jx t) (jy t)).
  assert (Q0 : 0 <= t0 / T <= 1) by (apply unit_time; assumption).
  assert (T1 : T / T = 1) by (field; lra).
  assert (F : forall i o, (i < 2)%nat -> (o <= 3)%nat -> fits X (SV i o)).
  { intros i o Hi Ho. destruct i as [|[|i]]; [apply (regular_fits 3)|apply (regular_fits 3)|lia]; assumption. }
  assert (F00 := F 0%nat 0%nat). assert (F01 := F 0%nat 1%nat). assert (F02 := F 0%nat 2%nat). assert (F03 := F 0%nat 3%nat).
  assert (F10 := F 1%nat 0%nat). assert (F11 := F 1%nat 1%nat). assert (F12 := F 1%nat 2%nat). assert (F13 := F 1%nat 3%nat).
  specialize (F00 ltac:(lia) ltac:(lia)). specialize (F01 ltac:(lia) ltac:(lia)). specialize (F02 ltac:(lia) ltac:(lia)). specialize (F03 ltac:(lia) ltac:(lia)).
  specialize (F10 ltac:(lia) ltac:(lia)). specialize (F11 ltac:(lia) ltac:(lia)). specialize (F12 ltac:(lia) ltac:(lia)). specialize (F13 ltac:(lia) ltac:(lia)).
  split; [|split].
  - assert (HI : holds (jets X (t0 / T)) (map init_constraint (quad_init (px, py) (vx, vy) (ax, ay) T))).
    { apply (starts_holds 0); [apply Rle_refl|exact Q0| |exact Sin]. intros tup Hin. unfold quad_init in Hin. cbn [In] in Hin.
      destruct Hin as [<-|[<-|[<-|[<-|[<-|[<-|[]]]]]]]; do 3 eexists; (split; [reflexivity|split; [fit|apply drift_0]]). }
    apply (quad_init_ok px py vx vy ax ay T (jets X (t0 / T)) P) in HI. unfold x, y, jx, jy. rewrite !phys0 in HI. exact HI.
  - assert (HT : holds (jets X 1) (map term_constraint (quad_term (gx, gy)))).
    { intros c Hc. apply in_map_iff in Hc. destruct Hc as ([e r] & <- & Hin).
      assert (V : forall i o, e = SV i o -> sval (jets X 1) e = r) by (intros i o ->; apply (stops_at 0 X _ i o r Sout Hin)).
      assert (EV : sval (jets X 1) e = r).
      { cbn in Hin. repeat (destruct Hin as [Hin|Hin]; [injection Hin as <- <-; eapply V; reflexivity|]). destruct Hin. }
      unfold term_constraint. cbn [cexpr clo chi fst snd sval]. rewrite EV. split; lra. }
    destruct (quad_term_ok gx gy T (jets X 1) 0 P (Rle_refl 0) HT) as (_ & K2 & K3).
    unfold jx, jy, x, y. rewrite T1.
    assert (Z : forall i o r, In (SV i o, r) (quad_term (gx, gy)) -> jets X 1 i o = r) by (intros i o r; apply (stops_at 0 X _ i o r Sout)).
    assert (E1 : call (X 0%nat) 1 = gx) by (apply (Z 0%nat 0%nat); cbn; tauto). assert (E2 : call (X 1%nat) 1 = gy) by (apply (Z 1%nat 0%nat); cbn; tauto).
    assert (E3 : jets X 1 0%nat 1%nat = 0) by (apply Z; cbn; tauto). assert (E4 : jets X 1 1%nat 1%nat = 0) by (apply Z; cbn; tauto).
    assert (E5 : jets X 1 0%nat 2%nat = 0) by (apply Z; cbn; tauto). assert (E6 : jets X 1 1%nat 2%nat = 0) by (apply Z; cbn; tauto).
    unfold quad_input in K3. rewrite K2. injection K3 as -> ->. rewrite !phys1, !phys2, E1, E2, E3, E4, E5, E6. unfold Rdiv. rewrite !Rmult_0_l. reflexivity.
  - intros t It. pose proof (unit_time t T P It) as Q.
    assert (H : holds (jets X (t / T)) (quad_constraints u1min u1max u2min u2max T)).
    { apply (lift_exact X); [|exact S|exact Q]. intros c Hc. unfold quad_constraints in Hc. cbn [In] in Hc.
      repeat (destruct Hc as [<-|Hc]; [split; [cbn [le0 cexpr]; fit|reflexivity]|]). destruct Hc. }
    apply (quad_limits u1min u1max u2min u2max T (jets X (t / T)) P UP UM) in H. cbv zeta in H. unfold quad_input in H. cbn [nth] in H.
    fold (jx t) (jy t) in H. destruct H as [L1 L2].
    destruct (quad_polar (jx t) (jy t)) as [C1 C2].
    split; [|split; [|split; [|split; [|split; [|split; [|split]]]]]].
    + apply (deriv_ext 0 T (fun u => jx u 0%nat)); [exact It|intros u _; unfold jx; apply phys0|]. apply (jet_chain 3); [exact P|exact R0|lia|exact It].
    + apply (deriv_ext 0 T (fun u => jy u 0%nat)); [exact It|intros u _; unfold jy; apply phys0|]. apply (jet_chain 3); [exact P|exact R1|lia|exact It].
    + apply (jet_chain 3); [exact P|exact R0|lia|exact It].
    + apply (jet_chain 3); [exact P|exact R1|lia|exact It].
    + lra.
    + lra.
    + intros C. pose proof (quad_moves 0 T jx jy t It) as MV. specialize (MV).
      assert (SM : forall o, (o <= 2)%nat -> smooth 0 T jx o /\ smooth 0 T jy o) by (intros o Ho; split; apply (regular_phys 3); try assumption; lia).
      apply (moves_nth _ _ _ _ _ 4 (MV SM C)). cbn. lia.
    + split; [exact L1|exact L2].
Qed.

(** ** SimpleQuadrotor3D *)
Theorem simple3d_trip : forall u1min u1max m2 m3 mphi mth T t0 px py pz vx vy vz phi0 th0 f0 gx gy gz X,
  0 < T -> 0 <= t0 <= T -> 0 <= u1min -> 0 <= u1max -> 0 <= m2 -> 0 <= m3 -> 0 <= mphi -> 0 <= mth ->
  0 < f0 -> - (PI/2) < phi0 < PI/2 -> - PI < th0 <= PI ->
  (forall i, (i < 3)%nat -> regular 3 (X i)) ->
  solved 0 X (simple3d_constraints u1min u1max (- m2) m2 (- m3) m3 (- mphi) mphi (- mth) mth T) ->
  starts 0 X (t0 / T) (simple3d_init (px, py, pz) (vx, vy, vz) phi0 th0 f0 T) -> stops 0 X (simple3d_term gx gy gz) ->
  let p i t := call (X i) (t / T) in
  exists (v : nat -> R -> R) (acc phi th u1 u2 u3 : R -> R),
    [p 0%nat t0; p 1%nat t0; p 2%nat t0; v 0%nat t0; v 1%nat t0; v 2%nat t0; phi t0; th t0; u1 t0] = [px; py; pz; vx; vy; vz; phi0; th0; f0] /\
    [p 0%nat T; p 1%nat T; p 2%nat T; v 0%nat T; v 1%nat T; v 2%nat T; phi T; th T; u1 T] = [gx; gy; gz; 0; 0; 0; 0; 0; gravity] /\
    forall t, 0 <= t <= T ->
      (forall i, (i < 3)%nat -> deriv_in 0 T (p i) t (v i t)) /\
      deriv_in 0 T (v 0%nat) t (u1 t * sin (th t) * cos (phi t)) /\
      deriv_in 0 T (v 1%nat) t (- u1 t * sin (phi t)) /\
      deriv_in 0 T (v 2%nat) t (acc t) /\ acc t = - gravity + u1 t * cos (phi t) * cos (th t) /\
      (0 < acc t + gravity ->
        deriv_in 0 T phi t (u2 t) /\ deriv_in 0 T th t (u3 t) /\
        u1min <= u1 t <= u1max /\ - Rmax m2 m3 <= u2 t <= Rmax m2 m3 /\ - m3 <= u3 t <= m3 /\
        - mphi <= phi t <= mphi /\ - mth <= th t <= mth).
Proof.
  intros u1min u1max m2 m3 mphi mth T t0 px py pz vx vy vz phi0 th0 f0 gx gy gz X P I0 B1 B2 B3 B4 B5 B6 FP A1 A2 RR S Sin Sout p.
  set (j := fun i t => phys T (jets X (t / T) i)).
  exists (fun i t => j i t 1%nat), (fun t => j 2%nat t 2%nat), (fun t => simple3d_phi (j 0%nat t) (j 1%nat t) (j 2%nat t)), (fun t => simple3d_theta (j 0%nat t) (j 1%nat t) (j 2%nat t)),
    (fun t => simple3d_u1 (j 0%nat t) (j 1%nat t) (j 2%nat t)), (fun t => simple3d_u2 (j 0%nat t) (j 1%nat t) (j 2%nat t)), (fun t => simple3d_u3 (j 0%nat t) (j 1%nat t) (j 2%nat t)).
  assert (Q0 : 0 <= t0 / T <= 1) by (apply unit_time; assumption).
  assert (T1 : T / T = 1) by (field; lra).
  assert (F : forall i o, (i < 3)%nat -> (o <= 3)%nat -> fits X (SV i o)) by (intros i o Hi Ho; apply (regular_fits 3); [apply RR, Hi|exact Ho]).
  assert (JP : forall i t, p i t = j i t 0%nat) by (intros i t; unfold p, j; rewrite phys0; reflexivity).
  split; [|split].
  - assert (HI : holds (jets X (t0 / T)) (map init_constraint (simple3d_init (px, py, pz) (vx, vy, vz) phi0 th0 f0 T))).
    { apply (starts_holds 0); [apply Rle_refl|exact Q0| |exact Sin]. intros tup Hin. unfold simple3d_init in Hin. cbn [In] in Hin.
      repeat (destruct Hin as [<-|Hin]; [do 3 eexists; (split; [reflexivity|split; [apply F; lia|apply drift_0]])|]). destruct Hin. }
    apply (simple3d_init_ok px py pz vx vy vz phi0 th0 f0 T (jets X (t0 / T)) P FP A1 A2) in HI. destruct HI as [K1 K2].
    fold (j 0%nat t0) (j 1%nat t0) (j 2%nat t0) in K1, K2. rewrite K2. unfold simple3d_state in K1.
    injection K1 as E1 E2 E3 E4 E5 E6 E7 E8. rewrite !JP, E1, E2, E3, E4, E5, E6, E7, E8. reflexivity.
  - assert (HT : holds (jets X 1) (map term_constraint (simple3d_term gx gy gz))).
    { intros c Hc. apply in_map_iff in Hc. destruct Hc as ([e r] & <- & Hin).
      assert (V : forall i o, e = SV i o -> sval (jets X 1) e = r) by (intros i o ->; apply (stops_at 0 X _ i o r Sout Hin)).
      assert (EV : sval (jets X 1) e = r).
      { cbn in Hin. repeat (destruct Hin as [Hin|Hin]; [injection Hin as <- <-; eapply V; reflexivity|]). destruct Hin. }
      unfold term_constraint. cbn [cexpr clo chi fst snd sval]. rewrite EV. split; lra. }
    destruct (simple3d_term_ok gx gy gz T (jets X 1) 0 P (Rle_refl 0) HT) as (_ & K1 & K2).
    assert (JT : forall i, phys T (jets X 1 i) = j i T) by (intros i; unfold j; rewrite T1; reflexivity).
    rewrite !JT in K1, K2. rewrite K2. unfold simple3d_state in K1.
    injection K1 as E1 E2 E3 E4 E5 E6 E7 E8. rewrite !JP, E1, E2, E3, E4, E5, E6, E7, E8. reflexivity.
  - intros t It. pose proof (unit_time t T P It) as Q.
    assert (H : holds (jets X (t / T)) (simple3d_constraints u1min u1max (- m2) m2 (- m3) m3 (- mphi) mphi (- mth) mth T)).
    { apply (lift_exact X); [|exact S|exact Q]. intros c Hc. unfold simple3d_constraints in Hc. cbn [In] in Hc.
      assert (F02 := F 0%nat 2%nat ltac:(lia) ltac:(lia)). assert (F03 := F 0%nat 3%nat ltac:(lia) ltac:(lia)).
      assert (F12 := F 1%nat 2%nat ltac:(lia) ltac:(lia)). assert (F13 := F 1%nat 3%nat ltac:(lia) ltac:(lia)).
      assert (F22 := F 2%nat 2%nat ltac:(lia) ltac:(lia)). assert (F23 := F 2%nat 3%nat ltac:(lia) ltac:(lia)).
      repeat (destruct Hc as [<-|Hc]; [split; [cbn [le0 cexpr]; fit|reflexivity]|]). destruct Hc. }
    destruct (simple_polar (j 0%nat t) (j 1%nat t) (j 2%nat t)) as (C1 & C2 & C3).
    assert (CH : forall i o, (i < 3)%nat -> (o < 3)%nat -> deriv_in 0 T (fun u => j i u o) t (j i t (Datatypes.S o))).
    { intros i o Hi Ho. apply (jet_chain 3); [exact P|apply RR, Hi|exact Ho|exact It]. }
    split; [|split; [|split; [|split; [|split]]]].
    + intros i Hi. apply (deriv_ext 0 T (fun u => j i u 0%nat)); [exact It|intros u _; symmetry; apply JP|]. apply CH; lia.
    + rewrite C1. apply CH; lia.
    + rewrite C2. apply CH; lia.
    + apply CH; lia.
    + symmetry. exact C3.
    + intros CP.
      assert (SM : forall o, (o <= 2)%nat -> smooth 0 T (j 0%nat) o /\ smooth 0 T (j 1%nat) o /\ smooth 0 T (j 2%nat) o)
        by (intros o Ho; split; [|split]; apply (regular_phys 3); try (apply RR); try exact P; lia).
      pose proof (simple3d_moves 0 T (j 0%nat) (j 1%nat) (j 2%nat) t It SM (or_introl CP)) as MV.
      pose proof (moves_nth _ _ _ _ _ 6 MV ltac:(cbn; lia)) as D6. pose proof (moves_nth _ _ _ _ _ 7 MV ltac:(cbn; lia)) as D7.
      destruct (simple3d_limits u1min u1max m2 m3 mphi mth T (jets X (t / T)) P B1 B2 B3 B4 B5 B6 CP H) as (L1 & L2 & L3 & L4 & L5).
      split; [exact D6|]. split; [exact D7|]. exact (conj L1 (conj L3 (conj L2 (conj L4 L5)))).
Qed.
