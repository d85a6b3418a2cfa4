(** Trips of the holonomic vehicles, and the option substitution. *)
From Coq Require Import String.
From Coq Require Import Reals List Arith Bool ZArith Lia Lra.
From Verif Require Import Spline_Model Spline_Spec Spline_Proofs Spline_Proofs2 Spline_Proofs3 Splop_Model Splop_Spec Splop_Proofs Splop_Proofs2 Splop_Proofs3
  Angle_Model Vehicle_Model Vehicle_Spec Vehicle_Proofs Vehicle_Proofs2 Wheel_Model Wheel_Proofs Wheel_Proofs3 Geom_Model Geom_Spec Lift_Model Lift_Spec Lift_Proofs Lift_Proofs2 Lift_Proofs3 Lift_Proofs4
  Loop_Proofs4 Quad_Model Quad_Proofs Trip_Model Trip_Spec Trip_Proofs Trip_Proofs2 Trip_Proofs3 Trip_Proofs4 Trip_Proofs5.
Import ListNotations.
Local Open Scope R_scope.

(** ** Holonomic1D and Holonomic3D *)
Lemma axes_init_in : forall n pos vel T k, (k < n)%nat ->
  In [SV k 0; SN (pos k)] (axes_init n pos vel T) /\ In [SV k 1; SN (T * vel k)] (axes_init n pos vel T).
Proof.
  intros n pos vel T k K. unfold axes_init.
  split; apply in_or_app; [left|right]; apply in_map_iff; exists k; (split; [reflexivity|apply in_seq; lia]).
Qed.
Lemma axes_term_in : forall n goal k, (k < n)%nat ->
  In (SV k 0, goal k) (axes_term n goal) /\ forall d, (1 <= d <= 3)%nat -> In (SV k d, 0) (axes_term n goal).
Proof.
  intros n goal k K. unfold axes_term. split; [|intros d D]; apply in_or_app; [left|right].
  - apply in_map_iff. exists k. split; [reflexivity|apply in_seq; lia].
  - apply in_flat_map. exists d. split; [apply in_seq; lia|]. apply in_map_iff. exists k. split; [reflexivity|apply in_seq; lia].
Qed.
Theorem axes_trip : forall tol n T t0 pos vel goal X, 0 < T -> 0 <= t0 <= T -> (forall i, (i < n)%nat -> regular 2 (X i)) ->
  starts tol X (t0 / T) (axes_init n pos vel T) -> stops tol X (axes_term n goal) ->
  let p i t := call (X i) (t / T) in
  let v i t := call (derivative (X i) 1) (t / T) / T in let a i t := call (derivative (X i) 2) (t / T) / T ^ 2 in
  forall i, (i < n)%nat ->
    (p i t0, v i t0) = (pos i, vel i) /\ (p i T, v i T, a i T) = (goal i, 0, 0) /\
    forall t, 0 <= t <= T -> deriv_in 0 T (p i) t (v i t) /\ deriv_in 0 T (v i) t (a i t).
Proof.
  intros tol n T t0 pos vel goal X P I0 RR Sin Sout p v a i Hi.
  pose proof (RR i Hi) as R. assert (T1 : T / T = 1) by (field; lra).
  destruct (axes_init_in n pos vel T i Hi) as [N1 N2]. destruct (axes_term_in n goal i Hi) as [O1 O2].
  assert (E1 : call (X i) (t0 / T) = pos i).
  { apply (starts_at tol X (t0 / T) _ i 0 (pos i) (proj1 R)) in N1; [exact N1|lia|exact Sin]. }
  assert (E2 : call (derivative (X i) 1) (t0 / T) = T * vel i).
  { apply (starts_at tol X (t0 / T) _ i 1 (T * vel i) (proj1 R)) in N2; [exact N2|destruct R as (_ & D & _); lia|exact Sin]. }
  assert (E3 : call (X i) 1 = goal i) by (apply (stops_at tol X _ i 0 (goal i) Sout O1)).
  assert (E4 : call (derivative (X i) 1) 1 = 0) by (apply (stops_at tol X _ i 1 0 Sout), O2; lia).
  assert (E5 : call (derivative (X i) 2) 1 = 0) by (apply (stops_at tol X _ i 2 0 Sout), O2; lia).
  split; [|split].
  - unfold p, v. rewrite E1, E2. f_equal. field. lra.
  - unfold p, v, a. rewrite T1, E3, E4, E5. unfold Rdiv. rewrite !Rmult_0_l. reflexivity.
  - intros t It. pose proof (jet_chain 2 X i 0 T t P R ltac:(lia) It) as D0. pose proof (jet_chain 2 X i 1 T t P R ltac:(lia) It) as D1.
    split.
    + apply (deriv_ext 0 T (fun u => phys T (jets X (u / T) i) 0%nat)); [exact It|intros u _; apply phys0|]. rewrite phys1 in D0. exact D0.
    + apply (deriv_ext 0 T (fun u => phys T (jets X (u / T) i) 1%nat)); [exact It|intros u _; apply phys1|]. rewrite phys2 in D1. exact D1.
Qed.
Lemma axes_fits : forall n X, (forall i, (i < n)%nat -> regular 2 (X i)) -> forall i o, (i < n)%nat -> (o <= 2)%nat -> fits X (SV i o).
Proof. intros n X RR i o Hi Ho. apply (regular_fits 2); [apply RR, Hi|exact Ho]. Qed.
Theorem holonomic1d_trip : forall tol vmin vmax amin amax T X, 0 <= tol -> 0 < T -> regular 2 (X 0%nat) ->
  solved tol X (holonomic1d_constraints vmin vmax amin amax T) ->
  forall t, 0 <= t <= T ->
  vmin <= call (derivative (X 0%nat) 1) (t / T) / T <= vmax /\ amin <= call (derivative (X 0%nat) 2) (t / T) / T ^ 2 <= amax.
Proof.
  intros tol vmin vmax amin amax T X Tt P R S t It. pose proof (unit_time t T P It) as Q.
  assert (H : holds (jets X (t / T)) (holonomic1d_constraints vmin vmax amin amax T)).
  { apply (lift_plain tol); [exact Tt| |exact S|exact Q]. intros c Hc. unfold holonomic1d_constraints in Hc. cbn [In] in Hc.
    assert (F1 : fits X (SV 0 1)) by (apply (regular_fits 2); [exact R|lia]). assert (F2 : fits X (SV 0 2)) by (apply (regular_fits 2); [exact R|lia]).
    repeat (destruct Hc as [<-|Hc]; [split; [cbn [le0 cexpr]; fit|split; reflexivity]|]). destruct Hc. }
  apply (holonomic1d_ok vmin vmax amin amax T (jets X (t / T)) P) in H. rewrite phys1, phys2 in H. exact H.
Qed.
Theorem holonomic3d_trip : forall tol vmin vmax amin amax T X cs, 0 <= tol -> 0 < T -> (forall i, (i < 3)%nat -> regular 2 (X i)) ->
  holonomic3d_constraints "norm_inf" vmin vmax amin amax T = Some cs -> solved tol X cs ->
  forall t i, 0 <= t <= T -> (i < 3)%nat ->
  vmin <= call (derivative (X i) 1) (t / T) / T <= vmax /\ amin <= call (derivative (X i) 2) (t / T) / T ^ 2 <= amax.
Proof.
  intros tol vmin vmax amin amax T X cs Tt P RR E S t i It Hi. pose proof (unit_time t T P It) as Q.
  destruct (holonomic3d_inf_ok vmin vmax amin amax T (jets X (t / T)) P) as (cs' & E' & K). rewrite E in E'. injection E' as <-.
  assert (F := axes_fits 3 X RR).
  assert (H : holds (jets X (t / T)) cs).
  { apply (lift_plain tol); [exact Tt| |exact S|exact Q]. intros c Hc. cbn in E. injection E as <-. cbn [In] in Hc.
    assert (F01 := F 0%nat 1%nat ltac:(lia) ltac:(lia)). assert (F02 := F 0%nat 2%nat ltac:(lia) ltac:(lia)).
    assert (F11 := F 1%nat 1%nat ltac:(lia) ltac:(lia)). assert (F12 := F 1%nat 2%nat ltac:(lia) ltac:(lia)).
    assert (F21 := F 2%nat 1%nat ltac:(lia) ltac:(lia)). assert (F22 := F 2%nat 2%nat ltac:(lia) ltac:(lia)).
    repeat (destruct Hc as [<-|Hc]; [split; [cbn [le0 cexpr]; fit|split; reflexivity]|]). destruct Hc. }
  pose proof (proj1 K H) as HK. clear H. rename HK into H. specialize (H i Hi). rewrite phys1, phys2 in H. exact H.
Qed.
Theorem holonomic3d_two_trip : forall vmin vmax amin amax T X cs, 0 < T -> 0 <= vmax -> 0 <= amax -> (forall i, (i < 3)%nat -> regular 2 (X i)) ->
  holonomic3d_constraints "norm_2" vmin vmax amin amax T = Some cs -> solved 0 X cs ->
  let v i t := call (derivative (X i) 1) (t / T) / T in let a i t := call (derivative (X i) 2) (t / T) / T ^ 2 in
  forall t, 0 <= t <= T ->
  sqrt (v 0%nat t ^ 2 + v 1%nat t ^ 2 + v 2%nat t ^ 2) <= vmax /\ sqrt (a 0%nat t ^ 2 + a 1%nat t ^ 2 + a 2%nat t ^ 2) <= amax.
Proof.
  intros vmin vmax amin amax T X cs P B1 B2 RR E S v a t It. pose proof (unit_time t T P It) as Q.
  destruct (holonomic3d_two_ok vmin vmax amin amax T (jets X (t / T)) P B1 B2) as (cs' & E' & K). rewrite E in E'. injection E' as <-.
  assert (F := axes_fits 3 X RR).
  assert (H : holds (jets X (t / T)) cs).
  { apply (lift_exact X); [|exact S|exact Q]. intros c Hc. cbn in E. injection E as <-. cbn [In] in Hc.
    assert (F01 := F 0%nat 1%nat ltac:(lia) ltac:(lia)). assert (F02 := F 0%nat 2%nat ltac:(lia) ltac:(lia)).
    assert (F11 := F 1%nat 1%nat ltac:(lia) ltac:(lia)). assert (F12 := F 1%nat 2%nat ltac:(lia) ltac:(lia)).
    assert (F21 := F 2%nat 1%nat ltac:(lia) ltac:(lia)). assert (F22 := F 2%nat 2%nat ltac:(lia) ltac:(lia)).
    repeat (destruct Hc as [<-|Hc]; [split; [cbn [le0 cexpr]; fit|reflexivity]|]). destruct Hc. }
  pose proof (proj1 K H) as HK. clear H. rename HK into H. rewrite !phys1, !phys2 in H. exact H.
Qed.

(** ** HolonomicOrient *)
Theorem orient_trip : forall vmin vmax amin amax wmin wmax T t0 px py th0 vx vy w0 gx gy gth X cs, 0 < T -> 0 <= t0 <= T ->
  - PI < th0 < PI -> - PI < gth < PI -> (forall i, (i < 3)%nat -> regular 2 (X i)) ->
  holonomicorient_constraints "norm_inf" vmin vmax amin amax wmin wmax T = Some cs -> solved 0 X cs ->
  starts 0 X (t0 / T) (holonomicorient_init (px, py, th0) (vx, vy, w0) T) -> stops 0 X (holonomicorient_term (gx, gy, gth)) ->
  let p i t := call (X i) (t / T) in let v i t := call (derivative (X i) 1) (t / T) / T in
  let a i t := call (derivative (X i) 2) (t / T) / T ^ 2 in
  let th t := 2 * atan (call (X 2%nat) (t / T)) in
  exists w : R -> R,
    [p 0%nat t0; p 1%nat t0; th t0] = [px; py; th0] /\ [v 0%nat t0; v 1%nat t0; w t0] = [vx; vy; w0] /\
    [p 0%nat T; p 1%nat T; th T] = [gx; gy; gth] /\ [v 0%nat T; v 1%nat T; w T] = [0; 0; 0] /\
    forall t, 0 <= t <= T ->
      deriv_in 0 T th t (w t) /\ wmin <= w t <= wmax /\
      forall i, (i < 2)%nat -> deriv_in 0 T (p i) t (v i t) /\ deriv_in 0 T (v i) t (a i t) /\
        vmin <= v i t <= vmax /\ amin <= a i t <= amax.
Proof.
  intros vmin vmax amin amax wmin wmax T t0 px py th0 vx vy w0 gx gy gth X cs P I0 A0 A1 RR E S Sin Sout p v a th.
  assert (F := axes_fits 3 X RR). assert (T1 : T / T = 1) by (field; lra).
  set (j := fun t => phys T (jets X (t / T) 2%nat)).
  assert (TH : forall t, th t = tgtheta (j t)) by (intros t; unfold th, j; rewrite tgtheta_atan, phys0; reflexivity).
  assert (Q0 : 0 <= t0 / T <= 1) by (apply unit_time; assumption).
  exists (fun t => tgdtheta (j t)).
  assert (HI : holds (jets X (t0 / T)) (map init_constraint (holonomicorient_init (px, py, th0) (vx, vy, w0) T))).
  { apply (starts_holds 0); [apply Rle_refl|exact Q0| |exact Sin]. intros tup Hin. unfold holonomicorient_init in Hin. cbn [In] in Hin.
    repeat (destruct Hin as [<-|Hin]; [do 3 eexists; (split; [reflexivity|split; [apply F; lia|apply drift_0]])|]). destruct Hin. }
  apply (orient_init_ok px py th0 vx vy w0 T (jets X (t0 / T)) P A0) in HI. destruct HI as [K1 K2].
  unfold holonomicorient_state in K1. unfold holonomicorient_input in K2. fold (j t0) in K1, K2. rewrite <- TH in K1. rewrite !phys0 in K1. rewrite !phys1 in K2.
  assert (Z : forall i o r, In (SV i o, r) (holonomicorient_term (gx, gy, gth)) -> jets X 1 i o = r) by (intros i o r; apply (stops_at 0 X _ i o r Sout)).
  split; [exact K1|]. split; [exact K2|]. split; [|split].
  - assert (E1 : p 0%nat T = gx) by (unfold p; rewrite T1; apply (Z 0%nat 0%nat); cbn; tauto).
    assert (E2 : p 1%nat T = gy) by (unfold p; rewrite T1; apply (Z 1%nat 0%nat); cbn; tauto).
    assert (E3 : th T = gth) by (unfold th; rewrite T1; apply half_iff; [exact A1|]; apply (Z 2%nat 0%nat); cbn; tauto).
    rewrite E1, E2, E3. reflexivity.
  - assert (E1 : call (derivative (X 0%nat) 1) 1 = 0) by (apply (Z 0%nat 1%nat); cbn; tauto).
    assert (E2 : call (derivative (X 1%nat) 1) 1 = 0) by (apply (Z 1%nat 1%nat); cbn; tauto).
    assert (E3 : call (derivative (X 2%nat) 1) 1 = 0) by (apply (Z 2%nat 1%nat); cbn; tauto).
    unfold v, j. rewrite tgdtheta_phys by exact P. unfold jets. rewrite T1, E1, E2, E3. unfold Rdiv. rewrite !Rmult_0_l, Rmult_0_r, Rmult_0_l. reflexivity.
  - intros t It. pose proof (unit_time t T P It) as Q.
    destruct (orient_inf_ok vmin vmax amin amax wmin wmax T (jets X (t / T)) P) as (cs' & E' & K). rewrite E in E'. injection E' as <-.
    assert (H : holds (jets X (t / T)) cs).
    { apply (lift_exact X); [|exact S|exact Q]. intros c Hc. cbn in E. injection E as <-. cbn [In app] in Hc.
      assert (F01 := F 0%nat 1%nat ltac:(lia) ltac:(lia)). assert (F02 := F 0%nat 2%nat ltac:(lia) ltac:(lia)).
      assert (F11 := F 1%nat 1%nat ltac:(lia) ltac:(lia)). assert (F12 := F 1%nat 2%nat ltac:(lia) ltac:(lia)).
      assert (F20 := F 2%nat 0%nat ltac:(lia) ltac:(lia)). assert (F21 := F 2%nat 1%nat ltac:(lia) ltac:(lia)).
      repeat (destruct Hc as [<-|Hc]; [split; [cbn [le0 cexpr]; fit|reflexivity]|]). destruct Hc. }
    pose proof (proj1 K H) as HK. clear H. rename HK into H. destruct H as [L1 L2]. unfold holonomicorient_input in L2. cbn [nth] in L2. fold (j t) in L2.
    split; [|split; [exact L2|]].
    + apply (deriv_ext 0 T (fun u => tgtheta (j u))); [exact It|intros u _; symmetry; apply TH|].
      apply theta_deriv; [exact It|]. apply (regular_phys 2); [exact P|apply RR; lia|lia].
    + intros i Hi. pose proof (RR i ltac:(lia)) as R.
      pose proof (jet_chain 2 X i 0 T t P R ltac:(lia) It) as D0. pose proof (jet_chain 2 X i 1 T t P R ltac:(lia) It) as D1.
      specialize (L1 i Hi). rewrite phys1, phys2 in L1.
      split; [|split; [|exact L1]].
      * apply (deriv_ext 0 T (fun u => phys T (jets X (u / T) i) 0%nat)); [exact It|intros u _; apply phys0|]. rewrite phys1 in D0. exact D0.
      * apply (deriv_ext 0 T (fun u => phys T (jets X (u / T) i) 1%nat)); [exact It|intros u _; apply phys1|]. rewrite phys2 in D1. exact D1.
Qed.

(** ** substitution *)
(** exact: the position made of the variables dx, dy is the integrated one *)
Theorem wheel_substitution_exact : forall X x0 y0 t0 T p, 0 < T -> 0 <= t0 <= T ->
  regular 0 (X 0%nat) -> regular 0 (X 1%nat) -> regular 0 (X 4%nat) -> regular 0 (X 5%nat) ->
  wheel_position 0 X (x0, y0) t0 T = Some p -> solved 0 X dubins_exact_substitution ->
  let q := wheel_substitute X (x0, y0) t0 T in
  forall t, 0 <= t <= T -> call (fst q) (t / T) = call (fst p) (t / T) /\ call (snd q) (t / T) = call (snd p) (t / T).
Proof.
  intros X x0 y0 t0 T p P I0 R0 R1 R4 R5 E S q.
  destruct (wheel_track 0 X x0 y0 t0 T p (Rle_refl 0) P I0 R0 R1 E) as (_ & _ & St & vx & vy & M).
  assert (EQ : forall (f g d : R -> R), f t0 = g t0 -> (forall t, 0 <= t <= T -> deriv_in 0 T f t (d t)) -> (forall t, 0 <= t <= T -> deriv_in 0 T g t (d t)) ->
    forall t, 0 <= t <= T -> f t = g t).
  { intros f g d E0 Df Dg t It.
    assert (Z : forall u, 0 <= u <= T -> deriv_in 0 T (fun u => f u - g u) u 0).
    { intros u Iu. eapply deriv_eq; [apply deriv_minus; [exact Iu|apply Df, Iu|apply Dg, Iu]|ring]. }
    pose proof (deriv_zero_const 0 T _ Z t t0 It I0) as C. cbv beta in C. lra. }
  assert (H : forall tau, 0 <= tau <= 1 -> holds (jets X tau) dubins_exact_substitution).
  { apply (lift_exact X); [|exact S]. intros c Hc. unfold dubins_exact_substitution in Hc. cbn [In] in Hc.
    assert (F0 := regular_fits 0 X 0 0 R0 (le_n 0)). assert (F1 := regular_fits 0 X 1 0 R1 (le_n 0)).
    assert (F4 := regular_fits 0 X 4 0 R4 (le_n 0)). assert (F5 := regular_fits 0 X 5 0 R5 (le_n 0)).
    repeat (destruct Hc as [<-|Hc]; [split; [cbn [cexpr]; fit|reflexivity]|]). destruct Hc. }
  assert (TD : forall i, regular 0 (X i) -> tidy (sbasis (X i))).
  { intros i (U & _ & K) t It. specialize (K t It). rewrite Nat.sub_0_r in K. exact K. }
  assert (V : forall t, 0 <= t <= T -> call (X 4%nat) (t / T) = vx t /\ call (X 5%nat) (t / T) = vy t).
  { intros t It. pose proof (unit_time t T P It) as Q. destruct (M t It) as (_ & _ & M3 & M4). rewrite !drift_0 in M3, M4. apply abs_le0 in M3, M4.
    destruct (proj1 (dubins_exact (jets X (t / T))) (H _ Q)) as [K1 K2].
    pose proof (til_dx_cos (jets X (t / T) 0%nat) (jets X (t / T) 1%nat)) as C1. pose proof (til_dy_sin (jets X (t / T) 0%nat) (jets X (t / T) 1%nat)) as C2.
    rewrite tgtheta_atan in C1, C2.
    split; [transitivity (jets X (t / T) 4%nat 0%nat); [reflexivity|]; rewrite K1, C1; symmetry; exact M3|
            transitivity (jets X (t / T) 5%nat 0%nat); [reflexivity|]; rewrite K2, C2; symmetry; exact M4]. }
  intros t It. split.
  - apply (EQ (fun u => call (fst q) (u / T)) (fun u => call (fst p) (u / T)) (fun u => call (X 4%nat) (u / T))); [| | |exact It].
    + cbn [q wheel_substitute fst snd]. rewrite integrate_spline_start by (try assumption; apply R4). symmetry. exact (f_equal fst St).
    + intros u Iu. apply integrate_spline_deriv; try assumption; [apply R4|apply TD, R4].
    + intros u Iu. destruct (V u Iu) as [-> _]. apply (M u Iu).
  - apply (EQ (fun u => call (snd q) (u / T)) (fun u => call (snd p) (u / T)) (fun u => call (X 5%nat) (u / T))); [| | |exact It].
    + cbn [q wheel_substitute fst snd]. rewrite integrate_spline_start by (try assumption; apply R5). symmetry. exact (f_equal snd St).
    + intros u Iu. apply integrate_spline_deriv; try assumption; [apply R5|apply TD, R5].
    + intros u Iu. destruct (V u Iu) as [_ ->]. apply (M u Iu).
Qed.

(** not exact: the two positions differ by at most eps per axis *)
Lemma hull_shift : forall vs vs' d, vs' = map (fun v => (fst v + fst d, snd v + snd d)) vs ->
  forall P, hull vs P -> hull vs' (fst P + fst d, snd P + snd d).
Proof.
  intros vs vs' d E P H. induction H as [v Hv|s p q Hs Hp IHp Hq IHq].
  - apply hull_vertex. rewrite E. apply in_map_iff. exists v. split; [reflexivity|exact Hv].
  - replace (fst (between s p q) + fst d, snd (between s p q) + snd d) with (between s (fst p + fst d, snd p + snd d) (fst q + fst d, snd q + snd d)).
    + apply hull_mix; assumption.
    + unfold between. cbn [fst snd]. f_equal; ring.
Qed.
Lemma dist_shift : forall P Q d e, 0 <= e -> Rabs (fst d) <= e -> Rabs (snd d) <= e ->
  dist (fst P + fst d, snd P + snd d) Q - sqrt 2 * e <= dist P Q.
Proof.
  intros P Q d e He D1 D2. unfold dist. cbn [fst snd].
  set (a := fst P - fst Q). set (b := snd P - snd Q). set (c := fst d) in *. set (g := snd d) in *.
  replace (fst P + c - fst Q) with (a + c) by (unfold a; ring). replace (snd P + g - snd Q) with (b + g) by (unfold b; ring).
  assert (C2 : c * c <= e * e) by (apply Rsqr_le_abs_1 in D1 || idtac; unfold Rabs in D1; destruct (Rcase_abs c); nra).
  assert (G2 : g * g <= e * e) by (unfold Rabs in D2; destruct (Rcase_abs g); nra).
  assert (S2 : sqrt 2 * sqrt 2 = 2) by (apply sqrt_sqrt; lra). assert (P2 : 0 <= sqrt 2) by apply sqrt_pos.
  set (r := sqrt (a² + b²)). assert (RR : r * r = a * a + b * b) by (unfold r; rewrite sqrt_sqrt; [reflexivity|unfold Rsqr; nra]).
  assert (R0 : 0 <= r) by apply sqrt_pos.
  assert (CS : a * c + b * g <= r * (sqrt 2 * e)).
  { apply Rsqr_incr_0_var; [|apply Rmult_le_pos; [exact R0|apply Rmult_le_pos; assumption]]. unfold Rsqr.
    replace (r * (sqrt 2 * e) * (r * (sqrt 2 * e))) with ((r * r) * (sqrt 2 * sqrt 2) * (e * e)) by ring. rewrite RR, S2.
    assert (L : (a * c + b * g) * (a * c + b * g) <= (a * a + b * b) * (c * c + g * g)).
    { pose proof (Rle_0_sqr (a * g - b * c)) as K. unfold Rsqr in K. nra. }
    pose proof (Rle_0_sqr a). pose proof (Rle_0_sqr b). unfold Rsqr in *. nra. }
  assert (U : sqrt ((a + c)² + (b + g)²) <= r + sqrt 2 * e).
  { assert (N : 0 <= r + sqrt 2 * e) by (apply Rplus_le_le_0_compat; [exact R0|apply Rmult_le_pos; assumption]).
    rewrite <- (sqrt_Rsqr (r + sqrt 2 * e) N). apply sqrt_le_1_alt. unfold Rsqr.
    replace ((r + sqrt 2 * e) * (r + sqrt 2 * e)) with (r * r + 2 * (r * (sqrt 2 * e)) + (sqrt 2 * sqrt 2) * (e * e)) by ring.
    rewrite RR, S2. nra. }
  lra.
Qed.
Theorem wheel_substitution_close : forall eps X x0 y0 t0 T p, 0 <= eps -> 0 < T -> 0 <= t0 <= T ->
  regular 0 (X 0%nat) -> regular 0 (X 1%nat) -> regular 0 (X 4%nat) -> regular 0 (X 5%nat) ->
  wheel_position 0 X (x0, y0) t0 T = Some p ->
  let q := wheel_substitute X (x0, y0) t0 T in
  solved 0 (placed_substitute X p q) (wheel_substitution eps) ->
  let x t := call (fst p) (t / T) in let y t := call (snd p) (t / T) in
  let xs t := call (fst q) (t / T) in let ys t := call (snd q) (t / T) in
  (xs t0, ys t0) = (x0, y0) /\
  (forall gx gy gth, stops 0 (placed_substitute X p q) (dubins_term_substitute (gx, gy, gth)) ->
     (xs T, ys T) = (gx, gy) /\ Rabs (x T - gx) <= eps /\ Rabs (y T - gy) <= eps) /\
  forall t, 0 <= t <= T -> Rabs (xs t - x t) <= eps /\ Rabs (ys t - y t) <= eps /\
    forall th off vchk d Q, (forall P, hull (map (world (xs t, ys t) th off) vchk) P -> d <= dist P Q) ->
      forall P, hull (map (world (x t, y t) th off) vchk) P -> d - sqrt 2 * eps <= dist P Q.
Proof.
  intros eps X x0 y0 t0 T p He P I0 R0 R1 R4 R5 E q S x y xs ys.
  destruct (wheel_track 0 X x0 y0 t0 T p (Rle_refl 0) P I0 R0 R1 E) as (Ux & Uy & St & _).
  set (Z := placed_substitute X p q) in *. assert (T1 : T / T = 1) by (field; lra).
  assert (Uxs : on_unit (fst q)) by (apply integrate_spline_unit; apply R4).
  assert (Uys : on_unit (snd q)) by (apply integrate_spline_unit; apply R5).
  assert (K : forall t, 0 <= t <= T -> Rabs (xs t - x t) <= eps /\ Rabs (ys t - y t) <= eps).
  { intros t It. pose proof (unit_time t T P It) as Q.
    assert (H : holds (jets Z (t / T)) (wheel_substitution eps)).
    { apply (lift_exact Z); [|exact S|exact Q]. intros c Hc. unfold wheel_substitution in Hc. cbn [In] in Hc.
      assert (F2 : fits Z (SV 2 0)) by (split; [exact Ux|lia]). assert (F3 : fits Z (SV 3 0)) by (split; [exact Uy|lia]).
      assert (F6 : fits Z (SV 6 0)) by (split; [exact Uxs|lia]). assert (F7 : fits Z (SV 7 0)) by (split; [exact Uys|lia]).
      repeat (destruct Hc as [<-|Hc]; [split; [cbn [cexpr]; fit|reflexivity]|]). destruct Hc. }
    pose proof (H _ (or_introl eq_refl)) as H1. pose proof (H _ (or_intror (or_introl eq_refl))) as H2. cbn [cexpr clo chi sval] in H1, H2.
    change (jets Z (t / T) 6%nat 0%nat) with (xs t) in H1. change (jets Z (t / T) 2%nat 0%nat) with (x t) in H1.
    change (jets Z (t / T) 7%nat 0%nat) with (ys t) in H2. change (jets Z (t / T) 3%nat 0%nat) with (y t) in H2.
    split; apply Rabs_le; lra. }
  split; [|split].
  - unfold xs, ys. cbn [q wheel_substitute fst snd]. rewrite !integrate_spline_start by (try assumption; first [apply R4|apply R5]). reflexivity.
  - intros gx gy gth SO. assert (E1 : xs T = gx) by (unfold xs; rewrite T1; apply (stops_at 0 Z _ 6 0 gx SO); cbn; tauto).
    assert (E2 : ys T = gy) by (unfold ys; rewrite T1; apply (stops_at 0 Z _ 7 0 gy SO); cbn; tauto).
    destruct (K T ltac:(lra)) as [K1 K2]. rewrite E1, E2 in *. split; [reflexivity|].
    rewrite (Rabs_minus_sym (x T)), (Rabs_minus_sym (y T)). split; assumption.
  - intros t It. destruct (K t It) as [K1 K2]. split; [exact K1|]. split; [exact K2|].
    intros th off vchk d Q HD A HA.
    pose proof (dist_shift A Q (xs t - x t, ys t - y t) eps He K1 K2) as G. cbn [fst snd] in G.
    assert (HS : hull (map (world (xs t, ys t) th off) vchk) (fst A + (xs t - x t), snd A + (ys t - y t))).
    { apply (hull_shift _ _ (xs t - x t, ys t - y t)) with (2 := HA). rewrite map_map. apply map_ext. intros c.
      unfold world, moved. cbn [fst snd]. f_equal; ring. }
    specialize (HD _ HS). lra.
Qed.

(** the same for a Quadrotor3D, eps = 1e-3 *)
Theorem quad3d_substitution_close : forall X pos0 vel0 t0 T m, 0 < T -> 0 <= t0 <= T ->
  regular 0 (X 0%nat) -> regular 0 (X 1%nat) -> regular 0 (X 2%nat) -> (forall k, (k < 3)%nat -> regular 0 (X (9 + k)%nat)) ->
  (forall k, (k < 3)%nat -> quad3d_axis 0 X pos0 vel0 t0 T k = Some (m k)) ->
  let q := quad3d_substitute X pos0 vel0 t0 T in let Z := flown_substitute X m q in
  solved 0 Z quad3d_substitution ->
  let pos k t := call (fst (m k)) (t / T) in let poss k t := call (fst (q k)) (t / T) in let vels k t := call (snd (q k)) (t / T) in
  (forall k t, (k < 3)%nat -> 0 <= t <= T -> Rabs (poss k t - pos k t) <= 1 / 1000 /\ deriv_in 0 T (poss k) t (vels k t)) /\
  forall goal phiT thT, stops 0 Z (quad3d_stop_substitute (goal 0%nat) (goal 1%nat) (goal 2%nat) phiT thT) ->
    forall k, (k < 3)%nat -> (poss k T, vels k T) = (goal k, 0) /\ Rabs (pos k T - goal k) <= 1 / 1000.
Proof.
  intros X pos0 vel0 t0 T m P I0 R0 R1 R2 RR E q Z S pos poss vels. assert (T1 : T / T = 1) by (field; lra).
  assert (TD : forall i, regular 0 (X i) -> tidy (sbasis (X i))).
  { intros i (U & _ & K) t It. specialize (K t It). rewrite Nat.sub_0_r in K. exact K. }
  assert (UQ : forall k, (k < 3)%nat -> on_unit (fst (q k)) /\ on_unit (snd (q k)) /\ tidy (sbasis (snd (q k)))).
  { intros k K. pose proof (proj1 (RR k K)) as U. pose proof (TD _ (RR k K)) as Td.
    assert (UV : on_unit (snd (q k))) by (apply integrate_spline_unit, U).
    split; [apply integrate_spline_unit, UV|]. split; [exact UV|]. apply integrate_spline_tidy; assumption. }
  assert (K1 : forall k t, (k < 3)%nat -> 0 <= t <= T -> Rabs (poss k t - pos k t) <= 1 / 1000).
  { intros k t K It. pose proof (unit_time t T P It) as Q.
    destruct (UQ k K) as (U1 & _). destruct (quad3d_track 0 X pos0 vel0 t0 T k (m k) (Rle_refl 0) P I0 R0 R1 R2 K (E k K)) as (U2 & _).
    set (c := Con (SV (12 + k) 0 - SV (3 + k) 0)%sx (Some (- (1 / 1000))) (1 / 1000)).
    assert (Hc : In c quad3d_substitution) by (unfold quad3d_substitution; apply in_map_iff; exists k; split; [reflexivity|cbn; lia]).
    assert (EZ1 : Z (12 + k)%nat = fst (q k)) by (destruct k as [|[|[|k]]]; [reflexivity|reflexivity|reflexivity|lia]).
    assert (EZ2 : Z (3 + k)%nat = fst (m k)) by (destruct k as [|[|[|k]]]; [reflexivity|reflexivity|reflexivity|lia]).
    assert (H : holds (jets Z (t / T)) [c]).
    { apply (lift_exact Z); [|apply (solved_one 0 Z quad3d_substitution c S Hc)|exact Q]. intros c' [<-|[]]. split; [|reflexivity].
      cbn [c cexpr fits]. rewrite EZ1, EZ2. split; (split; [assumption|lia]). }
    specialize (H c (or_introl eq_refl)). unfold c in H. cbn [cexpr clo chi sval] in H. unfold jets in H. rewrite EZ1, EZ2 in H.
    change (call (derivative (fst (q k)) 0) (t / T)) with (poss k t) in H. change (call (derivative (fst (m k)) 0) (t / T)) with (pos k t) in H.
    apply Rabs_le. lra. }
  split.
  - intros k t K It. split; [apply K1; assumption|]. destruct (UQ k K) as (U1 & U2 & U3).
    unfold poss, vels. apply (integrate_spline_deriv (snd (q k))); assumption.
  - intros goal phiT thT SO k K. specialize (K1 k T K ltac:(lra)).
    assert (E1 : poss k T = goal k).
    { unfold poss. rewrite T1. destruct k as [|[|[|k]]]; [apply (stops_at 0 Z _ 12 0 _ SO)|apply (stops_at 0 Z _ 13 0 _ SO)|apply (stops_at 0 Z _ 14 0 _ SO)|lia]; cbn; tauto. }
    assert (E2 : vels k T = 0).
    { unfold vels. rewrite T1. destruct k as [|[|[|k]]]; [apply (stops_at 0 Z _ 15 0 _ SO)|apply (stops_at 0 Z _ 16 0 _ SO)|apply (stops_at 0 Z _ 17 0 _ SO)|lia]; cbn; tauto. }
    rewrite E1 in *. rewrite E2. split; [reflexivity|]. rewrite Rabs_minus_sym. exact K1.
Qed.
