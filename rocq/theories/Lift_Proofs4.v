From Coq Require Import Reals List Arith Bool ZArith String Lia Lra.
From Verif Require Import Spline_Model Spline_Spec Spline_Proofs Splop_Model Splop_Spec Splop_Proofs2 Splop_Proofs3 Splop_Proofs4 Vehicle_Model Vehicle_Spec
  Vehicle_Proofs Vehicle_Proofs2 Wheel_Proofs Lift_Model Lift_Spec Lift_Proofs Lift_Proofs2 Lift_Proofs3 Geom_Spec.
From Verif Require Obst_Model Obst_Spec Obst_Proofs.
Import ListNotations.
Local Open Scope R_scope.

Lemma unit_time : forall t T, 0 < T -> 0 <= t <= T -> 0 <= t / T <= 1.
Proof.
  intros t T P I. split; apply (Rmult_le_reg_r T); try exact P; replace (t / T * T) with t by (field; lra); lra.
Qed.

(* a solved point-to-point problem of the holonomic vehicle *)
Theorem holonomic_trip : forall tol b T t0 state input goal X cs, 0 <= tol -> 0 < T -> 0 <= t0 <= T ->
  (forall i, (i < 2)%nat -> on_unit (X i) /\ degree (sbasis (X i)) = 3%nat /\
     forall t, 0 < t < 1 -> mult_le (sbasis (X i)) t 1) ->
  holonomic_constraints "norm_inf" b T = Some cs -> solved tol X cs ->
  starts tol X (t0 / T) (holonomic_init state input T) -> stops tol X (holonomic_term goal) ->
  let L := holonomic_limits b in
  let p i t := call (X i) (t / T) in
  exists v a : nat -> R -> R,
    (p 0%nat t0, p 1%nat t0) = state /\ (v 0%nat t0, v 1%nat t0) = input /\
    (p 0%nat T, p 1%nat T) = goal /\ (forall i, (i < 2)%nat -> v i T = 0 /\ a i T = 0) /\
    forall t, 0 <= t <= T ->
      (forall i, (i < 2)%nat -> deriv_in 0 T (p i) t (v i t) /\ deriv_in 0 T (v i) t (a i t)) /\
      vxmin L <= v 0%nat t <= vxmax L /\ vymin L <= v 1%nat t <= vymax L /\
      axmin L <= a 0%nat t <= axmax L /\ aymin L <= a 1%nat t <= aymax L.
Proof.
  intros tol b T t0 state input goal X cs Tt P I0 HX E S Sin Sout L p.
  exists (fun i t => phys T (jets X (t / T) i) 1), (fun i t => phys T (jets X (t / T) i) 2).
  assert (ON : forall i o, (i < 2)%nat -> (o <= 3)%nat -> on_unit (X i) /\ (o <= degree (sbasis (X i)))%nat).
  { intros i o Hi Ho. destruct (HX i Hi) as (A & B & _). split; [exact A|rewrite B; exact Ho]. }
  assert (ST : forall i o r, (i < 2)%nat -> (o <= 3)%nat -> In [SV i o; SN r] (holonomic_init state input T) -> jets X (t0 / T) i o = r).
  { intros i o r Hi Ho Hin. destruct (ON i o Hi Ho). apply (starts_value tol X (t0 / T) i o r); auto.
    intros tup [<-|[]]. apply Sin, Hin. }
  assert (SP : forall i o r, In (SV i o, r) (holonomic_term goal) -> jets X 1 i o = r).
  { intros i o r Hin. apply (stops_value tol X i o r). intros c [<-|[]]. apply Sout, Hin. }
  assert (J0 : forall i t, p i t = jets X (t / T) i 0%nat) by reflexivity.
  assert (T1 : T / T = 1) by (field; lra).
  destruct state as [sx0 sy0], input as [ux uy], goal as [gx gy].
  split; [|split; [|split; [|split]]].
  - rewrite !J0. f_equal; apply ST; try lia; cbn; auto.
  - unfold phys. rewrite (ST 0%nat 1%nat (T * ux)), (ST 1%nat 1%nat (T * uy)); try lia; try (cbn; tauto). f_equal; field; lra.
  - rewrite !J0, T1. f_equal; apply SP; cbn; tauto.
  - intros i Hi. unfold phys. rewrite T1.
    rewrite (SP i 1%nat 0), (SP i 2%nat 0) by (destruct i as [|[|i]]; [cbn; tauto|cbn; tauto|lia]). split; unfold Rdiv; ring.
  - intros t It. pose proof (unit_time t T P It) as Q.
    assert (SM : forall i o, (i < 2)%nat -> (o < 2)%nat -> smooth 0 1 (fun tau => jets X tau i) o).
    { intros i o Hi Ho. destruct (HX i Hi) as (A & B & C). apply jets_smooth; [exact A|lia|]. intros u Hu.
      rewrite B. intros k Hk [K1 K2]. specialize (C u Hu).
      assert (ND := proj1 (proj1 (proj1 A))).
      apply (C k); [lia|]. split; [exact K1|].
      apply Rle_antisym.
      - rewrite <- K2. apply ND; lia.
      - rewrite <- K1 at 1. apply ND; lia. }
    assert (D : forall i o, (i < 2)%nat -> (o < 2)%nat ->
      deriv_in 0 T (fun u => phys T (jets X (u / T) i) o) t (phys T (jets X (t / T) i) (Datatypes.S o))).
    { intros i o Hi Ho. exact (phys_smooth T (fun tau => jets X tau i) o P (SM i o Hi Ho) t It). }
    split.
    + intros i Hi. split; [|apply D; lia].
      apply (deriv_ext _ _ (fun u => phys T (jets X (u / T) i) 0)); [exact It|intros; apply phys0|]. apply D; lia.
    + destruct (holonomic_inf_ok b T (jets X (t / T)) P) as (cs' & E' & K). rewrite E in E'. injection E' as E'. subst cs'.
      apply K. apply (lift_plain tol); auto. intros c Hc.
      unfold holonomic_constraints in E. cbn in E. injection E as <-. unfold holonomic_inf in Hc.
      repeat (destruct Hc as [<-|Hc]; [cbn [le0 cexpr fits mentions plain]; split; [split; [apply ON; lia|exact Logic.I]|split; reflexivity]|]). destruct Hc.
Qed.

(* a disc that must avoid a disc moving as measured *)
Theorem disc_trip : forall tol X T t0 sd rv ro x v a,
  0 <= tol -> 0 < T -> 0 <= t0 <= T ->
  (forall i, (i < 6)%nat -> on_unit (X i)) ->
  X 6%nat = Obst_Model.pos_spline (fst x) (fst v) (fst a) t0 T ->
  X 7%nat = Obst_Model.pos_spline (snd x) (snd v) (snd a) t0 T ->
  let s i := SV i 0 in
  let n := norm_sx (s 2%nat) (s 3%nat) in
  let vc := veh_sx (s 2%nat) (s 3%nat) (s 4%nat) 0 0 rv (SN 1) sd (s 5%nat) (s 0%nat) (s 1%nat) (SN 0) 0 in
  let oc := obs_sx (s 2%nat) (s 3%nat) (s 4%nat) 0 0 ro (s 6%nat) (s 7%nat) (SN 1) (SN 0) (SN 1) in
  solved tol X (le0 n :: le0 vc :: le0 oc :: eps_cons sd (s 5%nat)) ->
  forall t, 0 <= t <= T ->
  let p i := call (X i) (t / T) in
  let o := (Obst_Spec.newton (fst x) (fst v) (fst a) (t - t0), Obst_Spec.newton (snd x) (snd v) (snd a) (t - t0)) in
  0 <= p 5%nat <= sd /\
  rv + ro + (sd - p 5%nat) - drift_max tol X [vc] - drift_max tol X [oc] <= sqrt (1 + drift tol X n) * dist (p 0%nat, p 1%nat) o.
Proof.
  intros tol X T t0 sd rv ro x v a Tt P I0 HX E6 E7 s n vc oc S t It p o.
  pose proof (unit_time t T P It) as Q.
  assert (OU : forall i, (i < 8)%nat -> on_unit (X i)).
  { intros i Hi. destruct (Nat.lt_ge_cases i 6) as [H|H]; [apply HX, H|].
    assert (C : i = 6%nat \/ i = 7%nat) by lia. destruct C as [-> | ->]; [rewrite E6|rewrite E7]; split; try exact obasis_clamped; reflexivity. }
  split.
  - assert (H : holds (jets X (t / T)) (eps_cons sd (s 5%nat))).
    { apply (lift_plain tol); auto.
      - intros c Hc. unfold eps_cons in Hc.
        destruct Hc as [<-|[<-|[]]]; cbn [le0 cexpr fits mentions plain s]; split; try (split; reflexivity); try split; try exact Logic.I; try split; try (apply OU; lia); lia.
      - intros c Hc. apply S. do 3 right. exact Hc. }
    pose proof (proj2 (H _ (or_introl eq_refl))) as H1. pose proof (proj2 (H _ (or_intror (or_introl eq_refl)))) as H2.
    cbn [le0 cexpr chi sval] in H1, H2. unfold s in *. cbn [sval] in H1, H2. unfold jets in H1, H2. cbn [derivative] in H1, H2. unfold p. lra.
  - pose proof (safe_close tol X (s 2%nat) (s 3%nat) (s 4%nat) [(0, 0)] rv sd (s 5%nat) (s 0%nat) (s 1%nat) (SN 0) 0
      [(0, 0)] ro (s 6%nat) (s 7%nat) (SN 1) (SN 0) (SN 1) (t / T) 0 0 Tt Q) as K.
    cbv zeta in K. cbn [map fst snd sval app] in K.
    replace (0 / 2) with 0 in K by field. rewrite cos_0, sin_0, tan_0, Rmult_1_r, Rmult_0_r in K.
    assert (F : forall e, In e [s 2%nat; s 3%nat; s 4%nat; s 5%nat; s 0%nat; s 1%nat; SN 0; s 6%nat; s 7%nat; SN 1; SN 0; SN 1] -> fits X e).
    { intros e He. unfold s in He.
      repeat (destruct He as [<-|He]; [cbn [fits]; first [exact Logic.I | split; [apply OU; lia|lia]]|]). destruct He. }
    assert (J : forall i, sval (jets X (t / T)) (s i) = p i) by reflexivity.
    specialize (K F eq_refl ltac:(lra) eq_refl ltac:(lra) eq_refl eq_refl).
    rewrite !J in K. fold n vc oc in K.
    unfold Rdiv in K. rewrite Rinv_1, !Rmult_1_r in K. fold (t / T) in K.
    assert (P6 : p 6%nat = fst o) by (unfold p; rewrite E6; apply Obst_Proofs.pos_spline_newton; auto).
    assert (P7 : p 7%nat = snd o) by (unfold p; rewrite E7; apply Obst_Proofs.pos_spline_newton; auto).
    assert (SS : solved tol X [le0 n; le0 vc; le0 oc]).
    { intros c Hc. apply S. destruct Hc as [<-|[<-|[<-|[]]]]; [left|right; left|do 2 right; left]; reflexivity. }
    specialize (K SS _ _ (hull_vertex [world (p 0%nat, p 1%nat) 0 0 (0, 0)] _ (or_introl eq_refl)) (hull_vertex [world (p 6%nat, p 7%nat) 0 0 (0, 0)] _ (or_introl eq_refl))).
    assert (W : forall z : R * R, world z 0 0 (0, 0) = z).
    { intros [z1 z2]. unfold world, moved, turned. cbn [fst snd]. f_equal; ring. }
    rewrite !W, P6, P7 in K. rewrite (surjective_pairing o). exact K.
Qed.

(* the two-norm limits hold at all times up to the rounding of small entries *)
Theorem two_norm_trip : forall tol b T X cs, 0 <= tol -> 0 < T ->
  (forall i, (i < 2)%nat -> on_unit (X i) /\ (2 <= degree (sbasis (X i)))%nat) ->
  holonomic_constraints "norm_2" b T = Some cs -> solved tol X cs ->
  let vm := dflt (b_vmax b) (1/2) in let am := dflt (b_amax b) 1 in
  let speed := (SV 0 1 ^ 2 + SV 1 1 ^ 2 - SN (T ^ 2 * vm ^ 2))%sx in
  let pull := (SV 0 2 ^ 2 + SV 1 2 ^ 2 - SN (T ^ 4 * am ^ 2))%sx in
  forall t, 0 <= t <= T ->
  let v i := phys T (jets X (t / T) i) 1 in let a i := phys T (jets X (t / T) i) 2 in
  v 0%nat ^ 2 + v 1%nat ^ 2 <= vm ^ 2 + drift tol X speed / T ^ 2 /\
  a 0%nat ^ 2 + a 1%nat ^ 2 <= am ^ 2 + drift tol X pull / T ^ 4.
Proof.
  intros tol b T X cs Tt P HX E S vm am speed pull t It v a. pose proof (unit_time t T P It) as Q.
  cbn in E. injection E as <-. unfold holonomic_two in S. fold vm am in S. fold speed pull in S.
  assert (F : forall i o, (i < 2)%nat -> (o <= 2)%nat -> on_unit (X i) /\ (o <= degree (sbasis (X i)))%nat).
  { intros i o Hi Ho. destruct (HX i Hi). split; [assumption|lia]. }
  assert (F1 : fits X speed) by (unfold speed; cbn [fits]; split; [split; (split; [apply F; lia|lia])|exact Logic.I]).
  assert (F2 : fits X pull) by (unfold pull; cbn [fits]; split; [split; (split; [apply F; lia|lia])|exact Logic.I]).
  pose proof (proj2 (lift_close tol X (le0 speed) (t / T) Tt F1 eq_refl Q (solved_one _ _ _ _ S (or_introl eq_refl)))) as K1.
  pose proof (proj2 (lift_close tol X (le0 pull) (t / T) Tt F2 eq_refl Q (solved_one _ _ _ _ S (or_intror (or_introl eq_refl))))) as K2.
  cbn [le0 chi cexpr] in K1, K2. unfold v, a, phys.
  set (d1 := drift tol X speed) in *. set (d2 := drift tol X pull) in *.
  unfold speed in K1. unfold pull in K2. cbn [sval] in K1, K2.
  assert (T2 : 0 < T ^ 2) by (apply pow_lt; exact P). assert (T4 : 0 < T ^ 4) by (apply pow_lt; exact P).
  split.
  - apply (Rmult_le_reg_r (T ^ 2)); [exact T2|]. rewrite (Rmult_plus_distr_r (vm ^ 2)).
    replace (d1 / T ^ 2 * T ^ 2) with d1 by (field; lra).
    replace (((jets X (t / T) 0%nat 1%nat / T ^ 1) ^ 2 + (jets X (t / T) 1%nat 1%nat / T ^ 1) ^ 2) * T ^ 2)
      with (jets X (t / T) 0%nat 1%nat ^ 2 + jets X (t / T) 1%nat 1%nat ^ 2) by (field; lra). lra.
  - apply (Rmult_le_reg_r (T ^ 4)); [exact T4|]. rewrite (Rmult_plus_distr_r (am ^ 2)).
    replace (d2 / T ^ 4 * T ^ 4) with d2 by (field; lra).
    replace (((jets X (t / T) 0%nat 2%nat / T ^ 2) ^ 2 + (jets X (t / T) 1%nat 2%nat / T ^ 2) ^ 2) * T ^ 4)
      with (jets X (t / T) 0%nat 2%nat ^ 2 + jets X (t / T) 1%nat 2%nat ^ 2) by (field; lra). lra.
Qed.
