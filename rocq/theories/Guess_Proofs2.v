(** Straight guesses, guesses at rest at both ends, guesses for angles. *)
From Coq Require Import String Reals List Arith Lia Lra Ratan.
From Verif Require Import Spline_Model Spline_Spec Spline_Proofs2 Spline_Proofs3 Splop_Spec Lift_Spec Lift_Proofs.
From Verif Require Import Guess_Model Guess_Spec Guess_Proofs.
From Verif Require Angle_Model Free_Proofs6.
Import ListNotations.
Local Open Scope R_scope.
Local Notation length := List.length.

Lemma lin_nth : forall n p q i, (i < n)%nat -> nth i (Angle_Model.linspace p q n) 0 = p + INR i * ((q - p) / INR (n - 1)).
Proof.
  intros n p q i H. unfold Angle_Model.linspace.
  rewrite (nth_indep _ 0 ((fun k => p + INR k * ((q - p) / INR (n - 1))) 0%nat)) by (rewrite map_length, seq_length; exact H).
  rewrite (map_nth (fun k => p + INR k * ((q - p) / INR (n - 1)))), seq_nth by exact H. reflexivity.
Qed.
Lemma lin_mix : forall n p q i, (i < n)%nat ->
  nth i (Angle_Model.linspace p q n) 0 = p + nth i (Angle_Model.linspace 0 1 n) 0 * (q - p).
Proof. intros n p q i H. rewrite !lin_nth by exact H. unfold Rdiv. ring. Qed.
Lemma lin_step : forall n p q i, p <= q -> (S i < n)%nat ->
  nth i (Angle_Model.linspace p q n) 0 <= nth (S i) (Angle_Model.linspace p q n) 0.
Proof.
  intros n p q i H L. rewrite !lin_nth by lia. rewrite S_INR.
  assert (0 <= (q - p) / INR (n - 1)).
  { apply Rmult_le_pos; [lra|]. left. apply Rinv_0_lt_compat, lt_0_INR. lia. }
  lra.
Qed.
Lemma lin_last : forall n p q, (2 <= n)%nat -> nth (n - 1) (Angle_Model.linspace p q n) 0 = q.
Proof.
  intros n p q H. rewrite lin_nth by lia. field. apply not_0_INR. lia.
Qed.
Lemma lin_first : forall n p q, (1 <= n)%nat -> nth 0 (Angle_Model.linspace p q n) 0 = p.
Proof. intros n p q H. rewrite lin_nth by lia. cbn [INR]. ring. Qed.
Lemma lin_bounds : forall n i, (2 <= n)%nat -> (i < n)%nat -> 0 <= nth i (Angle_Model.linspace 0 1 n) 0 <= 1.
Proof.
  intros n i H L. rewrite lin_nth by lia. pose proof (pos_INR i). assert (INR i <= INR (n - 1)) by (apply le_INR; lia).
  assert (0 < INR (n - 1)) by (apply lt_0_INR; lia).
  replace (0 + INR i * ((1 - 0) / INR (n - 1))) with (INR i / INR (n - 1)) by (field; lra).
  split; [apply Rmult_le_pos; [lra|left; apply Rinv_0_lt_compat; lra]|].
  apply (Rmult_le_reg_r (INR (n - 1))); [lra|]. unfold Rdiv. rewrite Rmult_assoc, Rinv_l by lra. lra.
Qed.

Lemma ramp_sweep : forall b, good_basis b -> sweep (curve b (ramp b 0 1) 0).
Proof.
  intros b G. pose proof (good_unit b _ G (ramp_length b 0 1)) as U. pose proof (rows_ge b G) as R1.
  assert (D : (1 <= degree b)%nat) by apply G.
  split; [|split].
  - unfold curve. cbn [derivative]. rewrite (unit_left _ U). cbn [coeffs]. apply lin_first. lia.
  - unfold curve. cbn [derivative]. rewrite (unit_right _ U). cbn [coeffs]. rewrite ramp_length. apply lin_last. lia.
  - apply sorted_curve; [exact G|apply ramp_length|]. intros i Hi. rewrite ramp_length in Hi. apply lin_step; [lra|exact Hi].
Qed.
Lemma ramp_curve : forall b p q x, good_basis b -> 0 <= x <= 1 ->
  curve b (ramp b p q) 0 x = p + curve b (ramp b 0 1) 0 x * (q - p).
Proof.
  intros b p q x G I. apply mixed_curve; auto using ramp_length. intros i Hi. apply lin_mix, Hi.
Qed.

(* the coefficients with flat ends *)
Lemma held_nth : forall b p q i, (2 * degree b <= rows b)%nat -> (i < rows b)%nat ->
  nth i (held b p q) 0 = (if (i <? degree b)%nat then p else if (i <? rows b - degree b)%nat
    then nth (i - degree b) (Angle_Model.linspace p q (rows b - 2 * degree b)) 0 else q).
Proof.
  intros b p q i H L. unfold held. destruct (i <? degree b)%nat eqn:E.
  - apply Nat.ltb_lt in E. rewrite app_nth1 by (rewrite repeat_length; exact E). apply nth_repeat_lt, E.
  - apply Nat.ltb_ge in E. rewrite app_nth2 by (rewrite repeat_length; exact E). rewrite repeat_length.
    destruct (i <? rows b - degree b)%nat eqn:F.
    + apply Nat.ltb_lt in F. rewrite app_nth1; [reflexivity|]. unfold Angle_Model.linspace. rewrite map_length, seq_length. lia.
    + apply Nat.ltb_ge in F. rewrite app_nth2; [|unfold Angle_Model.linspace; rewrite map_length, seq_length; lia].
      unfold Angle_Model.linspace. rewrite map_length, seq_length. apply nth_repeat_lt. lia.
Qed.
Lemma held_mix : forall b p q i, (2 * degree b <= rows b)%nat -> (i < rows b)%nat ->
  nth i (held b p q) 0 = p + nth i (held b 0 1) 0 * (q - p).
Proof.
  intros b p q i H L. rewrite !held_nth by auto. destruct (i <? degree b)%nat eqn:E; [ring|].
  destruct (i <? rows b - degree b)%nat eqn:F; [|ring]. apply Nat.ltb_ge in E. apply Nat.ltb_lt in F. apply lin_mix. lia.
Qed.
Lemma held_step : forall b i, roomy b -> (S i < rows b)%nat -> nth i (held b 0 1) 0 <= nth (S i) (held b 0 1) 0.
Proof.
  intros b i H L. unfold roomy in H. rewrite !held_nth by lia.
  destruct (Nat.ltb_spec (S i) (degree b)); destruct (Nat.ltb_spec i (degree b)); destruct (Nat.ltb_spec (S i) (rows b - degree b));
    destruct (Nat.ltb_spec i (rows b - degree b)); try lia; try lra.
  - apply lin_bounds; lia.
  - replace (S i - degree b)%nat with (S (i - degree b)) by lia. apply lin_step; [lra|lia].
  - apply lin_bounds; lia.
Qed.
Lemma held_curve : forall b p q x, good_basis b -> roomy b -> 0 <= x <= 1 ->
  curve b (held b p q) 0 x = p + curve b (held b 0 1) 0 x * (q - p).
Proof.
  intros b p q x G H I. unfold roomy in H. apply mixed_curve; auto; try (apply held_length; lia). intros i Hi. apply held_mix; lia.
Qed.
Lemma held_sweep : forall b, good_basis b -> roomy b -> sweep (curve b (held b 0 1) 0).
Proof.
  intros b G H. assert (H' := H). unfold roomy in H'.
  assert (L : length (held b 0 1) = rows b) by (apply held_length; lia).
  pose proof (good_unit b _ G L) as U. assert (D : (1 <= degree b)%nat) by apply G.
  split; [|split].
  - unfold curve. cbn [derivative]. rewrite (unit_left _ U). cbn [coeffs]. rewrite held_nth by lia.
    destruct (Nat.ltb_spec 0 (degree b)); [reflexivity|lia].
  - unfold curve. cbn [derivative]. rewrite (unit_right _ U). cbn [coeffs]. rewrite L, held_nth by lia.
    destruct (Nat.ltb_spec (rows b - 1) (degree b)); [lia|]. destruct (Nat.ltb_spec (rows b - 1) (rows b - degree b)); [lia|reflexivity].
  - apply sorted_curve; [exact G|exact L|]. intros i Hi. rewrite L in Hi. apply held_step; [exact H|exact Hi].
Qed.

(* equal coefficients at an end: the derivatives vanish there *)
Lemma der_len : forall o s, length (coeffs (derivative s o)) = (length (coeffs s) - o)%nat.
Proof.
  induction o as [|o IH]; intros s; [cbn [derivative]; lia|]. rewrite derivative_iter, deriv1_len, IH. lia.
Qed.
Lemma zero_left : forall o s m, (S o + m <= degree (sbasis s))%nat -> (degree (sbasis s) < length (coeffs s))%nat ->
  (forall i, (i <= degree (sbasis s))%nat -> nth i (coeffs s) 0 = nth 0 (coeffs s) 0) ->
  nth m (coeffs (derivative s (S o))) 0 = 0.
Proof.
  intros o s m M L H. revert m M. induction o as [|o IH]; intros m M; rewrite derivative_iter, step_coeffs by (rewrite der_len; lia).
  - change (derivative s 0) with s. rewrite (H (m + 1)%nat), (H m) by lia. unfold Rminus at 1. rewrite Rplus_opp_r. unfold Rdiv. ring.
  - rewrite !IH by lia. unfold Rminus at 1. rewrite Rplus_opp_r. unfold Rdiv. ring.
Qed.
Lemma zero_right : forall o s m, (S o + m <= degree (sbasis s))%nat -> (degree (sbasis s) < length (coeffs s))%nat ->
  (forall i, (i <= degree (sbasis s))%nat -> nth (length (coeffs s) - 1 - i) (coeffs s) 0 = nth (length (coeffs s) - 1) (coeffs s) 0) ->
  nth (length (coeffs s) - S o - 1 - m) (coeffs (derivative s (S o))) 0 = 0.
Proof.
  intros o s m M L H. revert m M. induction o as [|o IH]; intros m M; rewrite derivative_iter, step_coeffs by (rewrite der_len; lia).
  - change (derivative s 0) with s. replace (length (coeffs s) - 1 - 1 - m + 1)%nat with (length (coeffs s) - 1 - m)%nat by lia.
    replace (length (coeffs s) - 1 - 1 - m)%nat with (length (coeffs s) - 1 - (m + 1))%nat by lia.
    rewrite (H (m + 1)%nat), (H m) by lia. unfold Rminus at 1. rewrite Rplus_opp_r. unfold Rdiv. ring.
  - replace (length (coeffs s) - S (S o) - 1 - m + 1)%nat with (length (coeffs s) - S o - 1 - m)%nat by lia.
    replace (length (coeffs s) - S (S o) - 1 - m)%nat with (length (coeffs s) - S o - 1 - (m + 1))%nat by lia.
    rewrite !IH by lia. unfold Rminus at 1. rewrite Rplus_opp_r. unfold Rdiv. ring.
Qed.
Theorem held_rests : forall b p q o, good_basis b -> roomy b -> (1 <= o <= degree b)%nat ->
  curve b (held b p q) o 0 = 0 /\ curve b (held b p q) o 1 = 0.
Proof.
  intros b p q o G H O. assert (H' := H). unfold roomy in H'.
  assert (L : length (held b p q) = rows b) by (apply held_length; lia).
  pose proof (good_unit b _ G L) as U. assert (V := deriv_unit _ o U ltac:(cbn [sbasis]; lia)).
  unfold curve. rewrite (unit_left _ V), (unit_right _ V), der_len. destruct o as [|o]; [lia|]. cbn [coeffs]. rewrite L. split.
  - apply zero_left; cbn [sbasis coeffs]; try lia. intros i Hi. rewrite !held_nth by lia.
    destruct (Nat.ltb_spec i (degree b)); destruct (Nat.ltb_spec 0 (degree b)); try lia; try reflexivity.
    destruct (Nat.ltb_spec i (rows b - degree b)); [|lia]. rewrite lin_nth by lia. replace (i - degree b)%nat with 0%nat by lia. cbn [INR]. ring.
  - pose proof (zero_right o (mkS b (held b p q)) 0) as Z. cbn [sbasis coeffs] in Z. rewrite L in Z.
    rewrite Nat.sub_0_r in Z. apply Z; try lia. intros i Hi. rewrite !held_nth by lia.
    repeat match goal with |- context[Nat.ltb ?u ?v] => destruct (Nat.ltb_spec u v) end; try lia; try reflexivity.
    replace (rows b - 1 - i - degree b)%nat with (rows b - 2 * degree b - 1)%nat by lia. apply lin_last. lia.
Qed.
