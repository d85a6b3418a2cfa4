(** Free end time: the end of the motion. *)
From Coq Require Import String Reals QArith Qreals ZArith Lra Lia List Arith Bool.
From Coq Require Lqa.
From Verif Require Import Spline_Model Spline_Spec Blossom Spline_Proofs Spline_Proofs2 Spline_Proofs3 Splop_Spec Vehicle_Model Vehicle_Spec Vehicle_Proofs Vehicle_Proofs2 Quad_Proofs
  Wheel_Proofs Lift_Model Lift_Spec Lift_Proofs Lift_Proofs2 Lift_Proofs3 Lift_Proofs4
  Loop_Model Loop_Spec Loop_Proofs Loop_Proofs2 Loop_Proofs3 Loop_Proofs4 Loop_Proofs5 Loop_Proofs6 Loop_Proofs7 Loop_Proofs8
  Free_Model Free_Spec Free_Proofs Free_Proofs2 Free_Proofs3 Free_Proofs4 Free_Proofs5.
From Verif Require Timing_Model Timing_Proofs Timing_Proofs2 Geom_Spec Obst_Model Obst_Spec.
Import ListNotations.
Local Open Scope R_scope.
Local Notation length := List.length.

(** ** a spline whose derivatives all vanish at its end *)
Lemma derivative_0 : forall s, derivative s 0 = s.
Proof. intros [[k d] c]. reflexivity. Qed.
Lemma derivative_inner : forall o s, derivative (derivative s 1) o = derivative s (S o).
Proof.
  induction o as [|o IH]; intros s; [apply derivative_0|].
  rewrite derivative_iter, IH, <- derivative_iter. reflexivity.
Qed.

Definition ends_at (s : bspline) (e : R) : Prop :=
  well_formed (sbasis s) /\ sized s /\ dom_right (sbasis s) = e /\
  nth (length (knots (sbasis s)) - 1) (knots (sbasis s)) 0 = e /\
  nth (length (knots (sbasis s)) - degree (sbasis s) - 2) (knots (sbasis s)) 0 < e.

Lemma ends_deriv : forall s e, (1 <= degree (sbasis s))%nat -> ends_at s e -> ends_at (derivative s 1) e.
Proof.
  intros s e D (WF & SZ & DR & LA & LT).
  pose proof WF as [ND LN].
  assert (LK : length (knots (sbasis (derivative s 1))) = (length (knots (sbasis s)) - 2)%nat) by (rewrite deriv1_knots; apply length_trim).
  split; [apply deriv1_wf; assumption|]. split; [apply deriv1_sized; assumption|].
  split; [rewrite deriv1_dom_right; assumption|]. split.
  - rewrite LK, deriv1_knots, nth_trim by lia.
    replace (S (length (knots (sbasis s)) - 2 - 1)) with (length (knots (sbasis s)) - 2)%nat by lia.
    pose proof (ND (length (knots (sbasis s)) - degree (sbasis s) - 1)%nat (length (knots (sbasis s)) - 2)%nat ltac:(lia) ltac:(lia)) as A.
    pose proof (ND (length (knots (sbasis s)) - 2)%nat (length (knots (sbasis s)) - 1)%nat ltac:(lia) ltac:(lia)) as B.
    unfold dom_right in DR. lra.
  - rewrite LK, deriv1_knots, nth_trim by (rewrite deriv1_degree; lia). rewrite deriv1_degree.
    replace (S (length (knots (sbasis s)) - 2 - (degree (sbasis s) - 1) - 2)) with (length (knots (sbasis s)) - degree (sbasis s) - 2)%nat by lia.
    exact LT.
Qed.

Lemma rest_coeffs : forall d s e r, degree (sbasis s) = d -> ends_at s e -> call s e = r ->
  (forall o, (1 <= o <= d)%nat -> call (derivative s o) e = 0) ->
  forall i, (length (coeffs s) - d - 1 <= i < length (coeffs s))%nat -> cf s i = r.
Proof.
  induction d as [|d IH]; intros s e r DG EN CR CD i Hi.
  - destruct EN as (WF & SZ & DR & LA & LT). unfold cf. replace i with (length (coeffs s) - 1)%nat by lia.
    rewrite <- call_right_end by (try assumption; rewrite ?DR; congruence). rewrite DR. exact CR.
  - assert (D1 : (1 <= degree (sbasis s))%nat) by lia. pose proof (ends_deriv s e D1 EN) as EN'.
    assert (CL : length (coeffs (derivative s 1)) = (length (coeffs s) - 1)%nat) by apply deriv1_len.
    assert (Z : forall j, (length (coeffs s) - 1 - d - 1 <= j < length (coeffs s) - 1)%nat -> cf (derivative s 1) j = 0).
    { intros j Hj. apply (IH (derivative s 1) e 0).
      - rewrite deriv1_degree. lia.
      - exact EN'.
      - apply CD. lia.
      - intros o Ho. rewrite derivative_inner. apply CD. lia.
      - rewrite CL. exact Hj. }
    destruct EN as (WF & SZ & DR & LA & LT). destruct WF as [ND LN]. pose proof SZ as SZ'. unfold sized in SZ'. rewrite DG in *.
    assert (STEP : forall j, (length (coeffs s) - 1 - d - 1 <= j < length (coeffs s) - 1)%nat -> cf s j = cf s (j + 1)).
    { intros j Hj. pose proof (Z j Hj) as ZJ.
      assert (G : kn (sbasis s) (S j) < kn (sbasis s) (S j + S d)).
      { unfold kn. eapply Rle_lt_trans; [apply (ND (S j) (length (knots (sbasis s)) - S d - 2)%nat); lia|].
        eapply Rlt_le_trans; [exact LT|]. rewrite <- DR. unfold dom_right. rewrite DG. apply ND; lia. }
      rewrite deriv1_cf in ZJ by (rewrite ?DG; try assumption; lia).
      rewrite DG in ZJ. apply Rmult_integral in ZJ. destruct ZJ as [ZJ|ZJ]; [apply not_0_INR in ZJ; [contradiction|lia]|].
      apply Rmult_integral in ZJ. destruct ZJ as [ZJ|ZJ]; [lra|]. exfalso. revert ZJ. apply Rinv_neq_0_compat. lra. }
    assert (LST : cf s (length (coeffs s) - 1) = r).
    { unfold cf. rewrite <- call_right_end; try assumption; [rewrite DR; exact CR|split; [exact ND|lia]|rewrite DR, LA; reflexivity|rewrite DG, DR; exact LT]. }
    assert (K : forall q, (q <= S d)%nat -> (q < length (coeffs s))%nat -> cf s (length (coeffs s) - 1 - q) = r).
    { induction q as [|q IHq]; intros Q1 Q2; [rewrite Nat.sub_0_r; exact LST|].
      rewrite (STEP (length (coeffs s) - 1 - S q)%nat ltac:(lia)).
      replace (length (coeffs s) - 1 - S q + 1)%nat with (length (coeffs s) - 1 - q)%nat by lia. apply IHq; lia. }
    replace i with (length (coeffs s) - 1 - (length (coeffs s) - 1 - i))%nat by lia. apply K; lia.
Qed.

(** it is constant on the last knot interval *)
Theorem rest_at_end : forall s e r, ends_at s e -> call s e = r ->
  (forall o, (1 <= o <= degree (sbasis s))%nat -> call (derivative s o) e = 0) ->
  forall x, nth (length (knots (sbasis s)) - degree (sbasis s) - 2) (knots (sbasis s)) 0 < x <= e -> call s x = r.
Proof.
  intros s e r EN CR CD x Hx. pose proof (rest_coeffs (degree (sbasis s)) s e r eq_refl EN CR CD) as K.
  destruct EN as (WF & SZ & DR & LA & LT). pose proof WF as [ND LN]. unfold sized in SZ.
  set (J := (length (knots (sbasis s)) - degree (sbasis s) - 2)%nat) in *.
  assert (AC : active (sbasis s) x J).
  { apply active_inside; try (unfold J; lia). unfold kn. split; [apply Hx|].
    replace (J + 1)%nat with (length (knots (sbasis s)) - degree (sbasis s) - 1)%nat by (unfold J; lia).
    fold (dom_right (sbasis s)). rewrite DR. apply Hx. }
  rewrite (call_diag s x J ND SZ AC). unfold diag. rewrite (bl_ext_c _ _ _ (fun _ => r)); [apply bl_const|].
  intros i Hi. rewrite repeat_length in Hi. rewrite shn_spec. apply K. unfold J. lia.
Qed.

(** ** the plan ends at the goal *)
Lemma stops_end : forall g nd tol goal f i, (dim g <= 10)%nat -> 0 < Q2R (motion f) ->
  stops tol (own (body f)) (term_cons nd (dim g) 3 goal) -> (i < dim g)%nat ->
  fcourse f 0 i (Q2R (motion f)) = nth i goal 0 /\
  (nd = false -> forall o, (1 <= o <= 3)%nat -> fcourse f o i (Q2R (motion f)) = 0).
Proof.
  intros g nd tol goal f i D HT SO Hi.
  assert (V : forall o r, In (SV i o, r) (term_cons nd (dim g) 3 goal) -> call (derivative (path (body f) i) o) 1 = r).
  { intros o r Hin. rewrite <- own_path with (a := body f) by lia. apply (stops_value tol (own (body f)) i o r).
    intros c [<-|[]]. apply SO, Hin. }
  unfold fcourse. replace (Q2R (motion f) / Q2R (motion f)) with 1 by (field; lra). split.
  - rewrite (V 0%nat (nth i goal 0)); [cbn; field|]. apply in_or_app. left. apply in_map_iff. exists i. split; [reflexivity|apply in_seq; lia].
  - intros -> o Ho. rewrite (V o 0); [unfold Rdiv; ring|]. apply in_or_app. right. apply in_flat_map. exists o. split; [apply in_seq; lia|].
    apply in_map_iff. exists i. split; [reflexivity|apply in_seq; lia].
Qed.
Lemma accepted_end : forall g m nd tol limits goal vchk rv sd w f i, paced g m -> (dim g <= 10)%nat -> 0 < Q2R (motion f) ->
  f_accepted g nd tol limits goal vchk rv sd w f -> (i < dim g)%nat ->
  fcourse f 0 i (Q2R (motion f)) = nth i goal 0 /\
  (nd = false -> forall o, (1 <= o <= 3)%nat -> fcourse f o i (Q2R (motion f)) = 0).
Proof.
  intros g m nd tol limits goal vchk rv sd w f i ST D HT (_ & _ & _ & SO & _) Hi. exact (stops_end g nd tol goal f i D HT SO Hi).
Qed.

Lemma unit_ends : forall s, on_unit s -> ends_at s 1.
Proof.
  intros s [(WF & (_ & C2 & _ & C4) & _ & B) SZ]. unfold ends_at, dom_right. rewrite C2, B in *. 
  split; [exact WF|]. split; [exact SZ|]. split; [reflexivity|]. split; [reflexivity|]. exact C4.
Qed.

(** the planned vehicle waits at the goal during the whole last knot interval *)
Theorem f_rests : forall g tol goal f i, (dim g <= 10)%nat -> (0 < motion f)%Q -> proper g f ->
  stops tol (own (body f)) (term_cons false (dim g) 3 goal) -> (i < dim g)%nat ->
  forall t, last_inner (path (body f) i) * Q2R (motion f) < t <= Q2R (motion f) -> fcourse f 0 i t = nth i goal 0.
Proof.
  intros g tol goal f i D HQ PF AC Hi t It.
  assert (HT : 0 < Q2R (motion f)) by (apply Qreals.Qlt_Rlt in HQ; rewrite RMicromega.Q2R_0 in HQ; exact HQ).
  destruct (stops_end g false tol goal f i D HT AC Hi) as [E0 E1]. specialize (E1 eq_refl).
  destruct (proj1 PF i Hi) as (U & DG & _). unfold fcourse in *.
  replace (Q2R (motion f) / Q2R (motion f)) with 1 in * by (field; lra).
  rewrite derivative_0 in *. cbn [pow] in *. unfold Rdiv in *. rewrite Rinv_1, Rmult_1_r in *.
  apply (rest_at_end (path (body f) i) 1 (nth i goal 0)); [apply unit_ends, U|exact E0| |].
  - intros o Ho. rewrite DG in Ho. specialize (E1 o Ho). apply Rmult_integral in E1. destruct E1 as [E1|E1]; [exact E1|].
    exfalso. revert E1. apply Rinv_neq_0_compat, pow_nonzero. lra.
  - fold (last_inner (path (body f) i)). split; apply (Rmult_lt_reg_r (Q2R (motion f))) || apply (Rmult_le_reg_r (Q2R (motion f))); try exact HT;
      rewrite Rmult_assoc, Rinv_l by lra; lra.
Qed.

Lemma fcourse_incr0 : forall g f i vlo vhi s t, proper g f -> 0 < Q2R (motion f) -> (i < dim g)%nat ->
  (forall u, 0 <= u <= Q2R (motion f) -> vlo <= fcourse f 1 i u <= vhi) ->
  0 <= s -> s <= t -> t <= Q2R (motion f) ->
  vlo * (t - s) <= fcourse f 0 i t - fcourse f 0 i s <= vhi * (t - s).
Proof.
  intros g f i vlo vhi s t PF HT Hi W A B C.
  apply (deriv_bounds 0 (Q2R (motion f)) (fcourse f 0 i) (fcourse f 1 i)); auto.
  intros u Hu. apply (fcourse_deriv g); auto; lra.
Qed.
Lemma fcourse_incr1 : forall g f i alo ahi s t, proper g f -> 0 < Q2R (motion f) -> (i < dim g)%nat ->
  (forall u, 0 <= u <= Q2R (motion f) -> alo <= fcourse f 2 i u <= ahi) ->
  0 <= s -> s <= t -> t <= Q2R (motion f) ->
  alo * (t - s) <= fcourse f 1 i t - fcourse f 1 i s <= ahi * (t - s).
Proof.
  intros g f i alo ahi s t PF HT Hi W A B C.
  apply (deriv_bounds 0 (Q2R (motion f)) (fcourse f 1 i) (fcourse f 2 i)); auto.
  intros u Hu. apply (fcourse_deriv g); auto; lra.
Qed.

(** the time that is left of the plan after the last sample *)
Lemma left_bounds : forall g m f, paced g m -> timely g f -> 0 <= left_over g m f /\
  ((motion f < upd g)%Q -> left_over g m f < Q2R (ts g)).
Proof.
  intros g m f ST TI. destruct (count_time g m f ST TI) as (_ & _ & C). unfold left_over. split; [lra|]. intros L.
  destruct (count_ok g m f ST TI) as (_ & _ & _ & PI & _). pose proof ST as (TS & _ & _).
  assert (FT : f_time g f = motion f).
  { unfold f_time. rewrite (ltb_true _ _ L). unfold Timing_Model.sim_time. rewrite ltb_false; [reflexivity|].
    assert (Z0 : (motion f - 0 == motion f)%Q) by ring. Lqa.lra. }
  rewrite FT in PI.
  assert (NN : (0 <= motion f / ts g)%Q) by (apply Qle_shift_div_l; [exact TS|destruct TI; Lqa.lra]).
  destruct (Timing_Proofs.pint_bounds _ NN) as [_ B]. rewrite PI in B.
  assert (X : (motion f < (inject_Z (Z.of_nat (count g m f)) + 1) * ts g)%Q).
  { apply (Qmult_lt_r _ _ (ts g) TS) in B. assert (Y : (motion f / ts g * ts g == motion f)%Q) by (field; Lqa.lra). rewrite Y in B. exact B. }
  apply Qlt_Rlt in X. rewrite Q2R_mult, Q2R_plus, Q2R_inj, <- INR_IZR_INZ in X. replace (Q2R 1) with 1 in X by (unfold Q2R; cbn; field). lra.
Qed.

Lemma abs_le : forall x a, Rabs x <= a -> - a <= x <= a.
Proof. intros x a H. pose proof (Rle_abs x). pose proof (Rle_abs (- x)). rewrite Rabs_Ropp in *. lra. Qed.

Theorem free_arrives : forall g m nd tol b goal vchk rv sd s0 i0 obs fs f p v, paced g m -> consistent g -> 0 <= tol -> dim g = 2%nat ->
  length s0 = dim g -> length i0 = dim g -> legs g fs f ->
  all_found (f_accepted g nd tol (holonomic_constraints "norm_inf" b) goal vchk rv sd) g (fs ++ [f]) (world0 s0 i0 obs) ->
  f_moves g m fs f s0 i0 obs p v ->
  let L := holonomic_limits b in let E := end_time g m fs f in let R := left_over g m f in
  let W := INR (count g m f) * Q2R (ts g) in
  0 <= R /\ ((motion f < upd g)%Q -> R < Q2R (ts g)) /\
  forall i, (i < 2)%nat ->
    two (vxmin L) (vymin L) i * R - slip g L i W <= nth i goal 0 - p i E <= two (vxmax L) (vymax L) i * R + slip g L i W /\
    (nd = false -> two (axmin L) (aymin L) i * R - vslip g L i <= - v i E <= two (axmax L) (aymax L) i * R + vslip g L i).
Proof.
  intros g m nd tol b goal vchk rv sd s0 i0 obs fs f p v ST CO Tt D LS LI LG AA MV L E R W.
  assert (NL : nth_error (fs ++ [f]) (length fs) = Some f) by (rewrite nth_error_app2 by lia; rewrite Nat.sub_diag; reflexivity).
  destruct (legs_nth g m fs f _ f ST LG NL) as (_ & TI & PF & _). pose proof (timely_pos g m f ST TI) as HT.
  destruct (left_bounds g m f ST TI) as [R0 R1]. fold R in R0, R1. split; [exact R0|]. split; [exact R1|]. intros i Hi.
  destruct (count_time g m f ST TI) as (W0 & _ & W1). fold W in W0, W1.
  destruct (free_plan g m nd tol b goal vchk rv sd s0 i0 obs fs f p v ST CO Tt D LS LI LG AA MV (length fs) f i W NL Hi ltac:(fold W; lra)) as [P1 P2].
  replace (at_update g (length fs) + W) with E in P1, P2 by reflexivity. fold L in P1, P2.
  pose proof (f_within_ok g m nd tol b goal vchk rv sd s0 i0 obs fs f ST CO Tt D LS LI LG AA) as WI. cbv zeta in WI. fold L in WI.
  destruct (f_found g m nd tol _ goal vchk rv sd s0 i0 obs fs f ST CO ltac:(lia) LS LI LG AA _ f NL) as (w1 & AC & _).
  destruct (accepted_end g m nd tol _ goal vchk rv sd w1 f i ST ltac:(lia) HT AC ltac:(lia)) as [G0 G1].
  assert (RT : R = Q2R (motion f) - W) by reflexivity.
  pose proof (fcourse_incr0 g f i (two (vxmin L) (vymin L) i) (two (vxmax L) (vymax L) i) W (Q2R (motion f)) PF HT ltac:(lia)
    (fun u Hu => proj1 (WI _ f i u NL ltac:(lia) Hu)) ltac:(lra) ltac:(lra) ltac:(lra)) as Q0.
  pose proof (fcourse_incr1 g f i (two (axmin L) (aymin L) i) (two (axmax L) (aymax L) i) W (Q2R (motion f)) PF HT ltac:(lia)
    (fun u Hu => proj2 (WI _ f i u NL ltac:(lia) Hu)) ltac:(lra) ltac:(lra) ltac:(lra)) as Q1.
  rewrite <- RT, G0 in Q0. rewrite <- RT in Q1. pose proof (abs_le _ _ P1) as P1'. pose proof (abs_le _ _ P2) as P2'. split; [lra|].
  intros ND. rewrite (G1 ND 1%nat ltac:(lia)) in Q1. lra.
Qed.
