(** A Dubins vehicle: the trip without rounding, how far it gets and what it
    stays clear of. *)
From Coq Require Import Reals List Arith Bool ZArith Lia Lra.
From Verif Require Import Spline_Model Spline_Spec Spline_Proofs Spline_Proofs2 Spline_Proofs3 Splop_Model Splop_Spec Splop_Proofs Splop_Proofs2 Splop_Proofs3 Splop_Proofs4
  Vehicle_Model Vehicle_Spec Vehicle_Proofs Vehicle_Proofs2 Wheel_Model Wheel_Proofs Wheel_Proofs3 Geom_Model Geom_Spec Lift_Model Lift_Spec Lift_Proofs Lift_Proofs2 Lift_Proofs3 Lift_Proofs4
  Loop_Proofs4 Trip_Model Trip_Spec Trip_Proofs Trip_Proofs2.
From Verif Require Obst_Model Obst_Spec Obst_Proofs.
Import ListNotations.
Local Open Scope R_scope.

Lemma abs_le0 : forall a b, Rabs (a - b) <= 0 -> a = b.
Proof. intros a b H. apply close_0 in H. exact H. Qed.

Theorem dubins_trip_exact : forall vmax wmin wmax T t0 x0 y0 th0 V0 w0 gx gy gth X p, 0 < T -> 0 <= t0 <= T ->
  - PI < th0 < PI -> - PI < gth < PI ->
  regular 0 (X 0%nat) -> regular 1 (X 1%nat) -> wheel_position 0 X (x0, y0) t0 T = Some p ->
  let Y := placed X p in
  solved 0 Y (dubins_constraints vmax wmin wmax T) -> starts 0 Y (t0 / T) (dubins_init th0 V0 w0 T) -> stops 0 Y (dubins_term (gx, gy, gth)) ->
  let x t := call (fst p) (t / T) in let y t := call (snd p) (t / T) in
  let th t := 2 * atan (call (X 1%nat) (t / T)) in
  let V t := call (X 0%nat) (t / T) * (1 + call (X 1%nat) (t / T) ^ 2) in
  exists w : R -> R,
    (x t0, y t0, th t0) = (x0, y0, th0) /\ (V t0, w t0) = (V0, w0) /\
    (x T, y T, th T) = (gx, gy, gth) /\ (V T, w T) = (0, 0) /\
    drives T x y th V w /\ forall t, 0 <= t <= T -> 0 <= V t <= vmax /\ wmin <= w t <= wmax.
Proof.
  intros vmax wmin wmax T t0 x0 y0 th0 V0 w0 gx gy gth X p P I0 A0 AT R0 R1 E Y S Sin Sout x y th V.
  destruct (dubins_trip 0 vmax wmin wmax T t0 x0 y0 th0 V0 w0 gx gy gth X p (Rle_refl 0) P I0 A0 AT R0 R1 E S Sin Sout)
    as (vx & vy & w & H1 & H2 & H3 & H4 & H5).
  exists w. split; [exact H1|]. split; [exact H2|]. split; [exact H3|]. split; [exact H4|].
  rewrite drift_max_0 in H5. rewrite !drift_0 in H5.
  split.
  - intros t It. destruct (H5 t It) as (M1 & M2 & M3 & M4 & M5 & _). apply abs_le0 in M4, M5.
    rewrite M4 in M1. rewrite M5 in M2. split; [exact M1|split; [exact M2|exact M3]].
  - intros t It. destruct (H5 t It) as (_ & _ & _ & _ & _ & M6 & M7).
    fold (V t) in M6. unfold Rdiv in M7. rewrite Rmult_0_l in M7. lra.
Qed.

Theorem drives_gap : forall T x y th V w vm s t, drives T x y th V w -> (forall u, 0 <= u <= T -> Rabs (V u) <= vm) ->
  0 <= s -> s <= t -> t <= T -> gap (x s, y s) (x t, y t) <= vm * (t - s).
Proof.
  intros T x y th V w vm s t D B Hs Hst Ht. unfold gap. cbn [fst snd].
  set (dx := x s - x t). set (dy := y s - y t). set (g := sqrt (dx ^ 2 + dy ^ 2)).
  assert (SQ : g * g = dx ^ 2 + dy ^ 2) by (apply sqrt_sqrt; nra).
  assert (G0 : 0 <= g) by apply sqrt_pos.
  assert (VM : 0 <= vm) by (apply Rle_trans with (Rabs (V s)); [apply Rabs_pos|apply B; lra]).
  destruct (Req_dec g 0) as [Z|Z]; [rewrite Z; apply Rmult_le_pos; lra|].
  set (a := - dx / g). set (b := - dy / g).
  assert (AB : a * a + b * b = 1) by (unfold a, b; replace (- dx / g * (- dx / g) + - dy / g * (- dy / g)) with ((dx ^ 2 + dy ^ 2) / (g * g)) by (field; exact Z); rewrite <- SQ; field; exact Z).
  set (f := fun u => a * x u + b * y u).
  assert (DF : forall u, 0 <= u <= T -> deriv_in 0 T f u (a * (V u * cos (th u)) + b * (V u * sin (th u)))).
  { intros u Iu. destruct (D u Iu) as (D1 & D2 & _). apply deriv_plus; [exact Iu| |]; apply deriv_scal; assumption. }
  assert (BF : forall u, 0 <= u <= T -> - vm <= a * (V u * cos (th u)) + b * (V u * sin (th u)) <= vm).
  { intros u Iu. specialize (B u Iu). set (c := cos (th u)). set (n := sin (th u)).
    assert (CN : n * n + c * c = 1) by (pose proof (sin2_cos2 (th u)) as K; unfold Rsqr in K; exact K).
    assert (K : Rabs (a * c + b * n) <= 1).
    { rewrite <- (Rabs_R1). apply Rsqr_le_abs_0. unfold Rsqr.
      assert (ID : (a * c + b * n) * (a * c + b * n) = 1 * 1 - (a * n - b * c) * (a * n - b * c)).
      { replace (1 * 1) with ((a * a + b * b) * (n * n + c * c)) by (rewrite AB, CN; ring). ring. }
      pose proof (Rle_0_sqr (a * n - b * c)) as Q. unfold Rsqr in Q. lra. }
    replace (a * (V u * c) + b * (V u * n)) with (V u * (a * c + b * n)) by ring.
    assert (M : Rabs (V u * (a * c + b * n)) <= vm).
    { rewrite Rabs_mult. pose proof (Rabs_pos (V u)). pose proof (Rabs_pos (a * c + b * n)). nra. }
    split; [apply (Rle_trans _ (- Rabs (V u * (a * c + b * n)))); [lra|]|apply (Rle_trans _ (Rabs (V u * (a * c + b * n)))); [apply Rle_abs|exact M]].
    pose proof (Rle_abs (- (V u * (a * c + b * n)))) as N. rewrite Rabs_Ropp in N. lra. }
  pose proof (deriv_bounds 0 T f _ (- vm) vm DF BF s t Hs Hst Ht) as [_ K].
  replace (f t - f s) with g in K; [exact K|].
  unfold f. replace (a * x t + b * y t - (a * x s + b * y s)) with (- (a * dx + b * dy)) by (unfold dx, dy; ring).
  unfold a, b. replace (- (- dx / g * dx + - dy / g * dy)) with ((dx ^ 2 + dy ^ 2) / g) by (field; exact Z).
  rewrite <- SQ. field. exact Z.
Qed.

(** how far the vehicle gets, and how long the trip must take at least *)
Theorem dubins_reach : forall vmax wmin wmax T t0 x0 y0 th0 V0 w0 gx gy gth X p, 0 < T -> 0 <= t0 <= T ->
  - PI < th0 < PI -> - PI < gth < PI ->
  regular 0 (X 0%nat) -> regular 1 (X 1%nat) -> wheel_position 0 X (x0, y0) t0 T = Some p ->
  let Y := placed X p in
  solved 0 Y (dubins_constraints vmax wmin wmax T) -> starts 0 Y (t0 / T) (dubins_init th0 V0 w0 T) -> stops 0 Y (dubins_term (gx, gy, gth)) ->
  let x t := call (fst p) (t / T) in let y t := call (snd p) (t / T) in
  let th t := 2 * atan (call (X 1%nat) (t / T)) in
  (forall s t, 0 <= s -> s <= t -> t <= T ->
     gap (x s, y s) (x t, y t) <= vmax * (t - s) /\ wmin * (t - s) <= th t - th s <= wmax * (t - s)) /\
  gap (x0, y0) (gx, gy) <= vmax * (T - t0) /\ wmin * (T - t0) <= gth - th0 <= wmax * (T - t0).
Proof.
  intros vmax wmin wmax T t0 x0 y0 th0 V0 w0 gx gy gth X p P I0 A0 AT R0 R1 E Y S Sin Sout x y th.
  destruct (dubins_trip_exact vmax wmin wmax T t0 x0 y0 th0 V0 w0 gx gy gth X p P I0 A0 AT R0 R1 E S Sin Sout)
    as (w & H1 & H2 & H3 & H4 & D & L).
  assert (K : forall s t, 0 <= s -> s <= t -> t <= T ->
     gap (x s, y s) (x t, y t) <= vmax * (t - s) /\ wmin * (t - s) <= th t - th s <= wmax * (t - s)).
  { intros s t Hs Hst Ht. split.
    - apply (drives_gap T x y th _ w vmax s t D); [|exact Hs|exact Hst|exact Ht].
      intros u Iu. destruct (L u Iu) as [[L1 L2] _]. rewrite Rabs_right; [exact L2|apply Rle_ge, L1].
    - apply (deriv_bounds 0 T th w); [intros u Iu; apply (D u Iu)|intros u Iu; apply (L u Iu)|exact Hs|exact Hst|exact Ht]. }
  split; [exact K|]. specialize (K t0 T (proj1 I0) (proj2 I0) (Rle_refl T)).
  assert (A : forall a b c a' b' c' : R, (a, b, c) = (a', b', c') -> a = a' /\ b = b' /\ c = c') by (intros; split; [congruence|split; congruence]).
  apply A in H1. apply A in H3. destruct H1 as (E1 & E2 & E3), H3 as (E4 & E5 & E6).
  fold (x t0) in E1. fold (y t0) in E2. fold (th t0) in E3. fold (x T) in E4. fold (y T) in E5. fold (th T) in E6.
  rewrite E1, E2, E3, E4, E5, E6 in K. exact K.
Qed.

(** ** staying clear of an obstacle *)
Lemma cos_half_atan : forall a, cos (2 * atan a / 2) <> 0.
Proof.
  intros a. replace (2 * atan a / 2) with (atan a) by field. pose proof (atan_bound a) as B.
  apply Rgt_not_eq, cos_gt_0; lra.
Qed.
Lemma tan_half_atan : forall a, tan (2 * atan a / 2) = a.
Proof. intros a. replace (2 * atan a / 2) with (atan a) by field. apply tan_atan. Qed.
(** splines 8, 9, 10 are the hyperplane, 11 the slack on the safety distance,
    12 and 13 the predicted obstacle *)
Theorem wheel_safe : forall tol T t0 x0 y0 X p vchk rv sd off ochk ro ox ov oa, 0 <= tol -> 0 < T -> 0 <= t0 <= T ->
  regular 0 (X 0%nat) -> regular 0 (X 1%nat) -> wheel_position tol X (x0, y0) t0 T = Some p ->
  (forall i, (8 <= i < 12)%nat -> on_unit (X i)) ->
  X 12%nat = Obst_Model.pos_spline (fst ox) (fst ov) (fst oa) t0 T ->
  X 13%nat = Obst_Model.pos_spline (snd ox) (snd ov) (snd oa) t0 T ->
  let Y := placed X p in let s i := SV i 0 in
  let n := norm_sx (s 8%nat) (s 9%nat) in
  let vs := map (fun c => veh_sx (s 8%nat) (s 9%nat) (s 10%nat) (fst c) (snd c) rv (SN 1) sd (s 11%nat) (s 2%nat) (s 3%nat) (s 1%nat) off) vchk in
  let os := map (fun c => obs_sx (s 8%nat) (s 9%nat) (s 10%nat) (fst c) (snd c) ro (s 12%nat) (s 13%nat) (SN 1) (SN 0) (SN 1)) ochk in
  solved tol Y (le0 n :: map le0 vs ++ map le0 os) ->
  let x t := call (fst p) (t / T) in let y t := call (snd p) (t / T) in
  let th t := 2 * atan (call (X 1%nat) (t / T)) in
  let o t := (Obst_Spec.newton (fst ox) (fst ov) (fst oa) (t - t0), Obst_Spec.newton (snd ox) (snd ov) (snd oa) (t - t0)) in
  forall t, 0 <= t <= T -> forall P Q, hull (map (world (x t, y t) (th t) off) vchk) P -> hull (map (moved (o t)) ochk) Q ->
  rv + ro + (sd - call (X 11%nat) (t / T)) - drift_max tol Y vs - drift_max tol Y os <= sqrt (1 + drift tol Y n) * dist P Q.
Proof.
  intros tol T t0 x0 y0 X p vchk rv sd off ochk ro ox ov oa Tt P I0 R0 R1 E U E12 E13 Y s n vs os S x y th o t It A B HA HB.
  pose proof (unit_time t T P It) as Q.
  destruct (wheel_track tol X x0 y0 t0 T p Tt P I0 R0 R1 E) as (Ux & Uy & _).
  assert (OU : forall i, In i [1; 2; 3; 8; 9; 10; 11; 12; 13]%nat -> fits Y (s i)).
  { intros i Hi. split; [|lia].
    destruct Hi as [<-|[<-|[<-|[<-|[<-|[<-|[<-|[<-|[<-|[]]]]]]]]]]; cbn [Y placed].
    - apply R1. - exact Ux. - exact Uy. - apply U; lia. - apply U; lia. - apply U; lia. - apply U; lia.
    - rewrite E12. split; try exact obasis_clamped; reflexivity.
    - rewrite E13. split; try exact obasis_clamped; reflexivity. }
  pose proof (safe_close tol Y (s 8%nat) (s 9%nat) (s 10%nat) vchk rv sd (s 11%nat) (s 2%nat) (s 3%nat) (s 1%nat) off
    ochk ro (s 12%nat) (s 13%nat) (SN 1) (SN 0) (SN 1) (t / T) (th t) 0 Tt Q) as K.
  cbv zeta in K. fold n vs os in K.
  assert (F : forall e, In e [s 8%nat; s 9%nat; s 10%nat; s 11%nat; s 2%nat; s 3%nat; s 1%nat; s 12%nat; s 13%nat; SN 1; SN 0; SN 1] -> fits Y e).
  { intros e He. repeat (destruct He as [<-|He]; [first [exact Logic.I | apply OU; cbn; tauto]|]). destruct He. }
  cbn [sval] in K. rewrite cos_0, sin_0, Rmult_1_r, Rmult_0_r in K.
  specialize (K F eq_refl (cos_half_atan _) (eq_sym (tan_half_atan _)) Rlt_0_1 eq_refl eq_refl S A B).
  assert (P6 : sval (jets Y (t / T)) (s 12%nat) = fst (o t)).
  { change (call (X 12%nat) (t / T) = fst (o t)). rewrite E12. apply Obst_Proofs.pos_spline_newton; auto. }
  assert (P7 : sval (jets Y (t / T)) (s 13%nat) = snd (o t)).
  { change (call (X 13%nat) (t / T) = snd (o t)). rewrite E13. apply Obst_Proofs.pos_spline_newton; auto. }
  assert (HB' : hull (map (world (sval (jets Y (t / T)) (s 12%nat), sval (jets Y (t / T)) (s 13%nat)) 0 0) ochk) B).
  { rewrite P6, P7. rewrite (map_ext _ (moved (o t))); [exact HB|].
    intros c. unfold world, moved, turned. cbn [fst snd]. rewrite cos_0, sin_0. f_equal; ring. }
  specialize (K HA HB').
  change (sval (jets Y (t / T)) (s 11%nat)) with (call (X 11%nat) (t / T)) in K.
  unfold Rdiv in K. rewrite Rinv_1, !Rmult_1_r in K. exact K.
Qed.
Theorem wheel_safe_exact : forall T t0 x0 y0 X p vchk rv sd off ochk ro ox ov oa, 0 < T -> 0 <= t0 <= T ->
  regular 0 (X 0%nat) -> regular 0 (X 1%nat) -> wheel_position 0 X (x0, y0) t0 T = Some p ->
  (forall i, (8 <= i < 12)%nat -> on_unit (X i)) ->
  X 12%nat = Obst_Model.pos_spline (fst ox) (fst ov) (fst oa) t0 T ->
  X 13%nat = Obst_Model.pos_spline (snd ox) (snd ov) (snd oa) t0 T ->
  let s i := SV i 0 in
  let vs := map (fun c => veh_sx (s 8%nat) (s 9%nat) (s 10%nat) (fst c) (snd c) rv (SN 1) sd (s 11%nat) (s 2%nat) (s 3%nat) (s 1%nat) off) vchk in
  let os := map (fun c => obs_sx (s 8%nat) (s 9%nat) (s 10%nat) (fst c) (snd c) ro (s 12%nat) (s 13%nat) (SN 1) (SN 0) (SN 1)) ochk in
  solved 0 (placed X p) (le0 (norm_sx (s 8%nat) (s 9%nat)) :: map le0 vs ++ map le0 os) ->
  let x t := call (fst p) (t / T) in let y t := call (snd p) (t / T) in
  let th t := 2 * atan (call (X 1%nat) (t / T)) in
  let o t := (Obst_Spec.newton (fst ox) (fst ov) (fst oa) (t - t0), Obst_Spec.newton (snd ox) (snd ov) (snd oa) (t - t0)) in
  forall t, 0 <= t <= T -> forall P Q, hull (map (world (x t, y t) (th t) off) vchk) P -> hull (map (moved (o t)) ochk) Q ->
  rv + ro + (sd - call (X 11%nat) (t / T)) <= dist P Q.
Proof.
  intros T t0 x0 y0 X p vchk rv sd off ochk ro ox ov oa P I0 R0 R1 E U E12 E13 s vs os S x y th o t It A B HA HB.
  pose proof (wheel_safe 0 T t0 x0 y0 X p vchk rv sd off ochk ro ox ov oa (Rle_refl 0) P I0 R0 R1 E U E12 E13 S t It A B HA HB) as K.
  rewrite !drift_max_0, drift_0 in K. rewrite Rplus_0_r, sqrt_1, Rmult_1_l in K. unfold vs, os in *. lra.
Qed.
