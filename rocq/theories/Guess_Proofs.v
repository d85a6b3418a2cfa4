(** The curves of the guesses. *)
From Coq Require Import String Reals List Arith Lia Lra.
From Verif Require Import Spline_Model Spline_Spec Spline_Proofs Spline_Proofs2 Spline_Proofs3 Splop_Spec Lift_Spec Lift_Proofs Lift_Proofs2.
From Verif Require Import Vehicle_Spec Loop_Proofs4 Guess_Model Guess_Spec.
From Verif Require Angle_Model End_Proofs.
Import ListNotations.
Local Open Scope R_scope.
Local Notation length := List.length.

Lemma nth_repeat_lt : forall (x : R) n i, (i < n)%nat -> nth i (repeat x n) 0 = x.
Proof. intros x n. induction n as [|n IH]; intros [|i] H; cbn; auto; try lia. apply IH. lia. Qed.
Lemma ramp_length : forall b x y, length (ramp b x y) = rows b.
Proof. intros. unfold ramp, Angle_Model.linspace. rewrite map_length, seq_length. reflexivity. Qed.
Lemma flat_length : forall b x, length (flat b x) = rows b.
Proof. intros. apply repeat_length. Qed.
Lemma held_length : forall b x y, (2 * degree b <= rows b)%nat -> length (held b x y) = rows b.
Proof.
  intros b x y H. unfold held, Angle_Model.linspace. rewrite !app_length, map_length, seq_length, !repeat_length. lia.
Qed.

Lemma good_unit : forall b c, good_basis b -> length c = rows b -> on_unit (mkS b c).
Proof.
  intros b c (C & D & M) L. split; [exact C|]. unfold sized. cbn [coeffs sbasis]. destruct C as ((_ & HL) & _).
  unfold rows in L. lia.
Qed.
Lemma rows_ge : forall b, good_basis b -> (degree b + 1 <= rows b)%nat.
Proof. intros b (((_ & HL) & _) & _). unfold rows. lia. Qed.

Lemma unit_domain : forall s x, on_unit s -> 0 <= x <= 1 -> in_domain (sbasis s) x.
Proof.
  intros s x [(WF & CL & E1 & E2) Z] I. destruct (End_Proofs.clamped_ends _ WF CL) as (A & B & _).
  unfold End_Proofs.lo_end, End_Proofs.hi_end in A, B. rewrite E1 in A. rewrite E2 in B. unfold in_domain. rewrite <- A, <- B, E1.
  destruct (Req_dec x 0) as [->|N]; [right; repeat split; auto|left; lra]. pose proof (proj1 (proj2 (proj2 CL))) as K. unfold dom_left in A. unfold kn in A. rewrite <- A in K. exact K.
Qed.
Lemma unit_left : forall s, on_unit s -> call s 0 = nth 0 (coeffs s) 0.
Proof.
  intros s [(WF & CL & E1 & E2) Z]. pose proof (call_left_end s WF Z (proj1 CL) (proj1 (proj2 (proj2 CL)))) as K.
  rewrite E1 in K. exact K.
Qed.
Lemma unit_right : forall s, on_unit s -> call s 1 = nth (length (coeffs s) - 1) (coeffs s) 0.
Proof.
  intros s [(WF & CL & E1 & E2) Z]. destruct (End_Proofs.clamped_ends _ WF CL) as (A & B & _).
  unfold End_Proofs.hi_end in B. rewrite E2 in B. rewrite B. apply call_right_end; auto.
  - rewrite <- B, <- E2. reflexivity.
  - exact (proj2 (proj2 (proj2 CL))).
Qed.

(* nondecreasing coefficients make a nondecreasing curve *)
Lemma call_nonneg : forall s x, on_unit s -> 0 <= x <= 1 -> (forall c, In c (coeffs s) -> 0 <= c) -> 0 <= call s x.
Proof.
  intros s x U I H.
  assert (exists hi, forall c, In c (coeffs s) -> c <= hi) as [hi B].
  { clear. induction (coeffs s) as [|a l [h IH]]; [exists 0; intros ? []|]. exists (Rmax a h). intros c [<-|Hc]; [apply Rmax_l|].
    apply Rle_trans with h; [apply IH, Hc|apply Rmax_r]. }
  destruct (call_hull s x 0 hi) as [A _]; auto; [apply U|apply U|apply unit_domain; auto].
Qed.
Lemma step_coeffs : forall s i, (i < length (coeffs s) - 1)%nat ->
  nth i (coeffs (derivative s 1)) 0 =
  INR (degree (sbasis s)) * ((nth (i + 1) (coeffs s) 0 - nth i (coeffs s) 0) /
    (nth (i + degree (sbasis s)) (trim (knots (sbasis s))) 0 - nth i (trim (knots (sbasis s))) 0)).
Proof.
  intros s i H. cbn [derivative coeffs deriv_loop]. unfold deriv_step. rewrite Nat.sub_0_r.
  rewrite (nth_indep _ 0 ((fun j => INR (degree (sbasis s)) * (-1 / (nth (j + degree (sbasis s)) (trim (knots (sbasis s))) 0 - nth j (trim (knots (sbasis s))) 0) * nth j (coeffs s) 0 + 1 / (nth (j + degree (sbasis s)) (trim (knots (sbasis s))) 0 - nth j (trim (knots (sbasis s))) 0) * nth (j + 1) (coeffs s) 0)) 0%nat)) by (rewrite map_length, seq_length; exact H).
  rewrite (map_nth (fun j => _)), seq_nth by exact H. cbn [Nat.add]. unfold Rdiv. ring.
Qed.
Lemma sorted_curve : forall b c, good_basis b -> length c = rows b ->
  (forall i, (S i < length c)%nat -> nth i c 0 <= nth (S i) c 0) ->
  forall x y, 0 <= x -> x <= y -> y <= 1 -> curve b c 0 x <= curve b c 0 y.
Proof.
  intros b c G L H x y X XY Y. pose proof (good_unit b c G L) as U. destruct G as (C & D & M).
  assert (SM : smooth 0 1 (fun tau => jets (fun _ => mkS b c) tau 0%nat) 0).
  { apply jets_smooth; [exact U|exact D|]. intros t Ht. cbn [sbasis]. rewrite Nat.sub_0_r. apply M, Ht. }
  apply (deriv_grows 0 1 (curve b c 0) (curve b c 1)); [exact SM| |lra|lra|lra].
  - intros t Ht. unfold curve. apply call_nonneg; [apply deriv_unit; auto|exact Ht|].
    intros z Hz. apply (In_nth _ _ 0) in Hz. destruct Hz as (i & Hi & <-).
    rewrite deriv1_len in Hi. cbn [coeffs] in Hi. rewrite step_coeffs by (cbn [coeffs]; exact Hi). cbn [sbasis coeffs].
    apply Rmult_le_pos; [apply pos_INR|]. apply Rmult_le_pos; [specialize (H i ltac:(lia)); rewrite Nat.add_1_r; lra|].
    assert (N : nth i (trim (knots b)) 0 <= nth (i + degree b) (trim (knots b)) 0).
    { destruct (deriv1_wf (mkS b c) D (proj1 C)) as [ND _]. rewrite deriv1_knots in ND. cbn [sbasis] in ND.
      apply ND; [lia|]. rewrite length_trim. unfold rows in L. lia. }
    destruct N as [N|N]; [left; apply Rinv_0_lt_compat; lra|]. rewrite N. unfold Rminus. rewrite Rplus_opp_r, Rinv_0. lra.
Qed.

(* one parametrisation for all components *)
Lemma flat_curve : forall b a x, good_basis b -> 0 <= x <= 1 -> curve b (flat b a) 0 x = a.
Proof.
  intros b a x G I. pose proof (good_unit b _ G (flat_length b a)) as U.
  destruct (call_hull (mkS b (flat b a)) x a a) as [A B]; [apply U|apply U|apply unit_domain; auto| |unfold curve; cbn [derivative]; lra].
  intros c Hc. apply repeat_spec in Hc. lra.
Qed.
Lemma mixed_curve : forall b c0 c p q x, good_basis b -> length c0 = rows b -> length c = rows b -> 0 <= x <= 1 ->
  (forall i, (i < rows b)%nat -> nth i c 0 = p + nth i c0 0 * (q - p)) ->
  curve b c 0 x = p + curve b c0 0 x * (q - p).
Proof.
  intros b c0 c p q x G L0 L I H.
  assert (E : c = map (fun z => p * fst z + (q - p) * snd z) (combine (flat b 1) c0)).
  { apply (nth_ext _ _ 0 0); [rewrite map_length, combine_length, flat_length; lia|]. intros i Hi.
    rewrite (nth_indep (map _ _) 0 ((fun z => p * fst z + (q - p) * snd z) (0, 0))) by (rewrite map_length, combine_length, flat_length; lia).
    rewrite (map_nth (fun z => p * fst z + (q - p) * snd z)), combine_nth by (rewrite flat_length; lia).
    cbn [fst snd]. rewrite H by lia. unfold flat. rewrite nth_repeat_lt by lia. ring. }
  unfold curve. cbn [derivative]. rewrite E. rewrite call_lin; [|rewrite flat_length; lia|rewrite flat_length; reflexivity].
  pose proof (flat_curve b 1 x G I) as F. unfold curve in F. cbn [derivative] in F. rewrite F. ring.
Qed.
