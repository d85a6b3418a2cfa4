(** Whole trips: general facts, then a Dubins vehicle. *)
From Coq Require Import Reals List Arith Bool ZArith Lia Lra.
From Verif Require Import Spline_Model Spline_Spec Spline_Proofs Spline_Proofs2 Spline_Proofs3 Splop_Model Splop_Spec Splop_Proofs Splop_Proofs2 Splop_Proofs3
  Vehicle_Model Vehicle_Spec Vehicle_Proofs Vehicle_Proofs2 Wheel_Model Wheel_Proofs Wheel_Proofs3 Lift_Model Lift_Spec Lift_Proofs Lift_Proofs2 Lift_Proofs3 Lift_Proofs4
  Loop_Proofs4 Loop_Proofs9 Trip_Model Trip_Spec Trip_Proofs.
Import ListNotations.
Local Open Scope R_scope.

Ltac fit := repeat first [assumption | exact Logic.I | lia | split].

Lemma regular_fits : forall n X i o, regular n (X i) -> (o <= n)%nat -> fits X (SV i o).
Proof. intros n X i o (U & D & _) O. split; [exact U|lia]. Qed.
Lemma regular_seamless : forall n X i o, regular n (X i) -> (o <= n)%nat -> seamless X (SV i o).
Proof.
  intros n X i o (U & D & M) O t It. pose proof (unit_sorted _ U) as ND. specialize (M t It).
  apply mult_le_cnt in M; [|exact ND]. apply mult_le_cnt; [exact ND|]. lia.
Qed.
Lemma regular_smooth : forall n X i o, regular n (X i) -> (o < n)%nat -> smooth 0 1 (fun tau => jets X tau i) o.
Proof.
  intros n X i o R O. pose proof R as (U & D & M). apply jets_smooth; [exact U|lia|].
  intros t It. specialize (M t It). pose proof (unit_sorted _ U) as ND.
  apply mult_le_cnt in M; [|exact ND]. apply mult_le_cnt; [exact ND|]. lia.
Qed.
Lemma regular_phys : forall n X i o T, 0 < T -> regular n (X i) -> (o < n)%nat ->
  smooth 0 T (fun u => phys T (jets X (u / T) i)) o.
Proof. intros n X i o T P R O. apply (phys_smooth T (fun tau => jets X tau i) o P). apply (regular_smooth n); assumption. Qed.
Lemma regular_unit : forall n s, regular n s -> on_unit s.
Proof. intros n s R. apply R. Qed.

Lemma starts_holds : forall tol X tau tuples, 0 <= tol -> 0 <= tau <= 1 ->
  (forall tup, In tup tuples -> exists e r rest, tup = e :: SN r :: rest /\ fits X e /\ drift tol X e = 0) ->
  starts tol X tau tuples -> holds (jets X tau) (map init_constraint tuples).
Proof.
  intros tol X tau tuples Tt It F S c Hc. apply in_map_iff in Hc. destruct Hc as (tup & <- & Hin).
  destruct (F tup Hin) as (e & r & rest & -> & Fe & De). destruct (S _ Hin) as (s & q & B & Q & V). cbn [nth] in B, Q. injection Q as <-.
  assert (E : sval (jets X tau) e = r).
  { pose proof (build_close tol X e (Spl s) tau Tt Fe It B) as C. rewrite De in C. cbn [val] in C. apply close_0 in C.
    destruct (proj1 (build_good tol X e (Spl s) Fe B)) as [_ SZ].
    rewrite evalspline_call in V by exact SZ. lra. }
  unfold init_constraint. cbn [nth cexpr clo chi sval]. rewrite E. split; lra.
Qed.
Lemma stops_sval : forall tol X e r, 0 <= tol -> fits X e -> drift tol X e = 0 -> stops tol X [(e, r)] -> sval (jets X 1) e = r.
Proof.
  intros tol X e r Tt Fe De S. destruct (S (e, r) (or_introl eq_refl)) as (s & B & V). cbn [fst snd] in B, V.
  pose proof (build_close tol X e (Spl s) 1 Tt Fe ltac:(lra) B) as C. rewrite De in C. cbn [val] in C. apply close_0 in C. lra.
Qed.
Lemma stops_in : forall tol X cs c, stops tol X cs -> In c cs -> stops tol X [c].
Proof. intros tol X cs c S H c' [<-|[]]. apply S, H. Qed.
Lemma stops_at : forall tol X cs i o r, stops tol X cs -> In (SV i o, r) cs -> jets X 1 i o = r.
Proof. intros tol X cs i o r S H. apply (stops_value tol X i o r). apply (stops_in tol X cs); assumption. Qed.
Lemma starts_at : forall tol X tau cs i o r, on_unit (X i) -> (o <= degree (sbasis (X i)))%nat ->
  starts tol X tau cs -> In [SV i o; SN r] cs -> jets X tau i o = r.
Proof. intros tol X tau cs i o r U D S H. apply (starts_value tol X tau i o r U D). intros t [<-|[]]. apply S, H. Qed.

(** ** the integrated position *)
Lemma til_dx_fits : forall X, regular 0 (X 0%nat) -> regular 0 (X 1%nat) -> fits X til_dx_sx /\ seamless X til_dx_sx.
Proof.
  intros X R0 R1. pose proof (regular_fits 0 X 0 0 R0 (le_n 0)) as F0. pose proof (regular_fits 0 X 1 0 R1 (le_n 0)) as F1.
  pose proof (regular_seamless 0 X 0 0 R0 (le_n 0)) as S0. pose proof (regular_seamless 0 X 1 0 R1 (le_n 0)) as S1.
  unfold til_dx_sx. split; [exact (conj F0 (conj Logic.I (conj F1 (le_S _ _ (le_n 1)))))|exact (conj S0 (conj Logic.I S1))].
Qed.
Lemma til_dy_fits : forall X, regular 0 (X 0%nat) -> regular 0 (X 1%nat) -> fits X til_dy_sx /\ seamless X til_dy_sx.
Proof.
  intros X R0 R1. pose proof (regular_fits 0 X 0 0 R0 (le_n 0)) as F0. pose proof (regular_fits 0 X 1 0 R1 (le_n 0)) as F1.
  pose proof (regular_seamless 0 X 0 0 R0 (le_n 0)) as S0. pose proof (regular_seamless 0 X 1 0 R1 (le_n 0)) as S1.
  unfold til_dy_sx. split; [exact (conj F0 (conj Logic.I F1))|exact (conj S0 (conj Logic.I S1))].
Qed.
Theorem wheel_track : forall tol X x0 y0 t0 T p, 0 <= tol -> 0 < T -> 0 <= t0 <= T ->
  regular 0 (X 0%nat) -> regular 0 (X 1%nat) -> wheel_position tol X (x0, y0) t0 T = Some p ->
  let x t := call (fst p) (t / T) in let y t := call (snd p) (t / T) in
  let th t := 2 * atan (call (X 1%nat) (t / T)) in
  let V t := call (X 0%nat) (t / T) * (1 + call (X 1%nat) (t / T) ^ 2) in
  on_unit (fst p) /\ on_unit (snd p) /\ (x t0, y t0) = (x0, y0) /\
  exists vx vy : R -> R, forall t, 0 <= t <= T ->
    deriv_in 0 T x t (vx t) /\ deriv_in 0 T y t (vy t) /\
    Rabs (vx t - V t * cos (th t)) <= drift tol X til_dx_sx /\ Rabs (vy t - V t * sin (th t)) <= drift tol X til_dy_sx.
Proof.
  intros tol X x0 y0 t0 T p Tt P I0 R0 R1 E x y th V. unfold wheel_position in E.
  destruct (til_dx_fits X R0 R1) as [Fx Sx]. destruct (til_dy_fits X R0 R1) as [Fy Sy].
  destruct (build tol X til_dx_sx) as [[r|dx]|] eqn:Bx; cbn [spline_of] in E; try discriminate.
  destruct (build tol X til_dy_sx) as [[r|dy]|] eqn:By; cbn [spline_of] in E; try discriminate.
  injection E as <-. cbn [fst snd] in *.
  destruct (build_spline tol X _ _ Fx Sx Bx) as [Ux Tx]. destruct (build_spline tol X _ _ Fy Sy By) as [Uy Ty].
  split; [apply integrate_spline_unit, Ux|]. split; [apply integrate_spline_unit, Uy|]. split.
  - unfold x, y. rewrite !integrate_spline_start by assumption. reflexivity.
  - exists (fun t => call dx (t / T)), (fun t => call dy (t / T)). intros t It. pose proof (unit_time t T P It) as Q.
    split; [apply integrate_spline_deriv; assumption|]. split; [apply integrate_spline_deriv; assumption|].
    assert (EX : sval (jets X (t / T)) til_dx_sx = V t * cos (th t)).
    { pose proof (til_dx_cos (jets X (t / T) 0%nat) (jets X (t / T) 1%nat)) as K. rewrite tgtheta_atan in K. exact K. }
    assert (EY : sval (jets X (t / T)) til_dy_sx = V t * sin (th t)).
    { pose proof (til_dy_sin (jets X (t / T) 0%nat) (jets X (t / T) 1%nat)) as K. rewrite tgtheta_atan in K. exact K. }
    rewrite <- EX, <- EY. split; [exact (build_close tol X _ _ (t / T) Tt Fx Q Bx)|exact (build_close tol X _ _ (t / T) Tt Fy Q By)].
Qed.

(** ** Dubins *)
Lemma wbound : forall T g d w D, 0 < T -> 0 <= D -> 2 * d - (1 + g ^ 2) * T * w <= D -> 2 * (d / T) / (1 + g ^ 2) <= w + D / T.
Proof.
  intros T g d w D P HD H. assert (G : 1 <= 1 + g ^ 2) by nra.
  apply (Rmult_le_reg_r (T * (1 + g ^ 2))); [nra|].
  replace (2 * (d / T) / (1 + g ^ 2) * (T * (1 + g ^ 2))) with (2 * d) by (field; split; lra).
  replace ((w + D / T) * (T * (1 + g ^ 2))) with ((1 + g ^ 2) * T * w + D * (1 + g ^ 2)) by (field; lra). nra.
Qed.
Lemma wbound_low : forall T g d w D, 0 < T -> 0 <= D -> - (2 * d) + (1 + g ^ 2) * T * w <= D -> w - D / T <= 2 * (d / T) / (1 + g ^ 2).
Proof.
  intros T g d w D P HD H. pose proof (wbound T g (- d) (- w) D P HD ltac:(lra)) as K.
  replace (2 * (- d / T) / (1 + g ^ 2)) with (- (2 * (d / T) / (1 + g ^ 2))) in K by (field; repeat split; nra). lra.
Qed.

Theorem dubins_trip : forall tol vmax wmin wmax T t0 x0 y0 th0 V0 w0 gx gy gth X p, 0 <= tol -> 0 < T -> 0 <= t0 <= T ->
  - PI < th0 < PI -> - PI < gth < PI ->
  regular 0 (X 0%nat) -> regular 1 (X 1%nat) -> wheel_position tol X (x0, y0) t0 T = Some p ->
  let Y := placed X p in let cs := dubins_constraints vmax wmin wmax T in
  solved tol Y cs -> starts tol Y (t0 / T) (dubins_init th0 V0 w0 T) -> stops tol Y (dubins_term (gx, gy, gth)) ->
  let x t := call (fst p) (t / T) in let y t := call (snd p) (t / T) in
  let th t := 2 * atan (call (X 1%nat) (t / T)) in
  let V t := call (X 0%nat) (t / T) * (1 + call (X 1%nat) (t / T) ^ 2) in
  let D := drift_max tol Y (map cexpr cs) in
  exists vx vy w : R -> R,
    (x t0, y t0, th t0) = (x0, y0, th0) /\ (V t0, w t0) = (V0, w0) /\
    (x T, y T, th T) = (gx, gy, gth) /\ (V T, w T) = (0, 0) /\
    forall t, 0 <= t <= T ->
      deriv_in 0 T x t (vx t) /\ deriv_in 0 T y t (vy t) /\ deriv_in 0 T th t (w t) /\
      Rabs (vx t - V t * cos (th t)) <= drift tol X til_dx_sx /\ Rabs (vy t - V t * sin (th t)) <= drift tol X til_dy_sx /\
      0 <= V t <= vmax + D /\ wmin - D / T <= w t <= wmax + D / T.
Proof.
  intros tol vmax wmin wmax T t0 x0 y0 th0 V0 w0 gx gy gth X p Tt P I0 A0 AT R0 R1 E Y cs S Sin Sout x y th V D.
  assert (R10 : regular 0 (X 1%nat)).
  { destruct R1 as (U & Dg & M). split; [exact U|]. split; [lia|]. intros t It.
    pose proof (unit_sorted _ U) as ND. specialize (M t It). apply mult_le_cnt in M; [|exact ND]. apply mult_le_cnt; [exact ND|]. lia. }
  destruct (wheel_track tol X x0 y0 t0 T p Tt P I0 R0 R10 E) as (Ux & Uy & St & vx & vy & M). fold x y th V in M, St.
  assert (D0 : 0 <= D) by apply drift_max_nonneg.
  assert (F00 : fits Y (SV 0 0)) by exact (regular_fits 0 X 0 0 R0 (le_n 0)).
  assert (F10 : fits Y (SV 1 0)) by exact (regular_fits 1 X 1 0 R1 (le_S _ _ (le_n 0))).
  assert (F11 : fits Y (SV 1 1)) by exact (regular_fits 1 X 1 1 R1 (le_n 1)).
  set (w := fun t => 2 * (call (derivative (X 1%nat) 1) (t / T) / T) / (1 + call (X 1%nat) (t / T) ^ 2)).
  assert (W : forall t, w t = tgdtheta (phys T (jets X (t / T) 1%nat))) by (intros t; unfold w; rewrite tgdtheta_phys by exact P; reflexivity).
  assert (TH : forall t, th t = tgtheta (phys T (jets X (t / T) 1%nat))).
  { intros t. unfold th. rewrite tgtheta_atan, phys0. reflexivity. }
  exists vx, vy, w.
  assert (Q0 : 0 <= t0 / T <= 1) by (apply unit_time; assumption).
  assert (T1 : T / T = 1) by (field; lra).
  assert (HI : holds (jets Y (t0 / T)) (map init_constraint (dubins_init th0 V0 w0 T))).
  { apply (starts_holds tol); [exact Tt|exact Q0| |exact Sin]. intros tup Hin. cbn in Hin.
    destruct Hin as [<-|[<-|[<-|[]]]]; do 3 eexists; (split; [reflexivity|split; [|reflexivity]]); assumption. }
  apply (dubins_init_ok th0 V0 w0 T (jets Y (t0 / T)) P A0) in HI. destruct HI as [H1 H2].
  assert (HT : forall i o r, In (SV i o, r) (dubins_term (gx, gy, gth)) -> jets Y 1 i o = r) by (intros i o r; apply (stops_at tol Y _ i o r Sout)).
  split; [|split; [|split; [|split]]].
  - assert (SA : x t0 = x0) by exact (f_equal fst St). assert (SB : y t0 = y0) by exact (f_equal snd St).
    rewrite SA, SB, TH. unfold Y in H1. change (jets (placed X p) (t0 / T) 1%nat) with (jets X (t0 / T) 1%nat) in H1. rewrite H1. reflexivity.
  - rewrite W. unfold dubins_input in H2. injection H2 as H2 H3.
    change (jets Y (t0 / T) 1%nat) with (jets X (t0 / T) 1%nat) in H2, H3. rewrite H3. f_equal.
    unfold til_V in H2. rewrite !phys0 in H2. exact H2.
  - assert (Ex : x T = gx) by (unfold x; rewrite T1; apply (HT 2%nat 0%nat gx); cbn; auto).
    assert (Ey : y T = gy) by (unfold y; rewrite T1; apply (HT 3%nat 0%nat gy); cbn; auto).
    assert (Et : th T = gth).
    { unfold th. rewrite T1. apply half_iff; [exact AT|]. apply (HT 1%nat 0%nat (tan (gth / 2))). cbn; auto. }
    rewrite Ex, Ey, Et. reflexivity.
  - assert (E0 : call (X 0%nat) 1 = 0) by (apply (HT 0%nat 0%nat 0); cbn; tauto).
    assert (E1 : call (derivative (X 1%nat) 1) 1 = 0) by (apply (HT 1%nat 1%nat 0); cbn; tauto).
    unfold V, w. rewrite T1, E0, E1. f_equal; unfold Rdiv; ring.
  - intros t It. pose proof (unit_time t T P It) as Q. destruct (M t It) as (M1 & M2 & M3 & M4).
    assert (K : forall e, In (le0 e) cs -> fits Y e -> mentions e = true -> sval (jets Y (t / T)) e <= D).
    { intros e Hin Fe Me. apply (le0_close tol Y cs (map cexpr cs)); auto. apply in_map_iff. exists (le0 e). auto. }
    split; [exact M1|]. split; [exact M2|]. split; [|split; [exact M3|split; [exact M4|]]].
    + rewrite W. apply (deriv_ext 0 T (fun u => tgtheta (phys T (jets X (u / T) 1%nat)))); [exact It|intros u _; symmetry; apply TH|].
      apply (theta_deriv 0 T (fun u => phys T (jets X (u / T) 1%nat)) t It). apply (regular_phys 1); [exact P|exact R1|lia].
    + assert (K1 := K _ (or_introl eq_refl)). assert (K2 := K _ (or_intror (or_introl eq_refl))).
      assert (K3 := K _ (or_intror (or_intror (or_introl eq_refl)))). assert (K4 := K _ (or_intror (or_intror (or_intror (or_introl eq_refl))))).
      specialize (K1 ltac:(fit) eq_refl).
      specialize (K3 ltac:(fit) eq_refl).
      specialize (K4 ltac:(fit) eq_refl).
      assert (K2' : 0 <= call (X 0%nat) (t / T)).
      { pose proof (lift_plain tol Y [le0 (- SV 0 0)] Tt) as LP.
        assert (HP : holds (jets Y (t / T)) [le0 (- SV 0 0)]).
        { apply LP; [|apply (solved_one tol Y cs); [exact S|right; left; reflexivity]|exact Q].
          intros c [<-|[]]. split; [exact F00|split; reflexivity]. }
        specialize (HP _ (or_introl eq_refl)). destruct HP as [_ HP]. cbn in HP. change (jets Y (t / T) 0%nat 0%nat) with (call (X 0%nat) (t / T)) in HP. lra. }
      cbn [sval] in K1, K3, K4. change (jets Y (t / T) 0%nat 0%nat) with (call (X 0%nat) (t / T)) in K1.
      change (jets Y (t / T) 1%nat 0%nat) with (call (X 1%nat) (t / T)) in K1, K3, K4.
      change (jets Y (t / T) 1%nat 1%nat) with (call (derivative (X 1%nat) 1) (t / T)) in K3, K4.
      split.
      * unfold V. split; [apply Rmult_le_pos; [exact K2'|nra]|lra].
      * unfold w. split; [apply wbound_low; assumption|apply wbound; assumption].
Qed.
