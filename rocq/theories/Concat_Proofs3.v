(** Proofs about the concatenation of segments: one joint, all joints of one
    signal, all signals. *)
From Coq Require Import Reals Lra Lia List Permutation Arith ZArith.
From Verif Require Import Blossom Spline_Model Spline_Spec Spline_Proofs Spline_Proofs2 Spline_Proofs3 Spline_Proofs5
  Splop_Model Splop_Spec Splop_Proofs Splop_Proofs2 Span_Proofs End_Proofs Contact_Proofs
  Multi_Model Multi_Spec Multi_Proofs Concat_Model Concat_Spec Concat_Proofs Concat_Proofs2.
Import ListNotations.
Local Open Scope R_scope.

(** ** derivatives of a clamped spline, piece by piece *)
Lemma deriv_call : forall s lo hi J x d, clamped_on (sbasis s) lo hi -> sized s -> (d <= degree (sbasis s))%nat ->
  active (sbasis s) x J ->
  call (derivative s d) x = falling (degree (sbasis s)) d *
     dFn d (spiece s J) (repeat x (degree (sbasis s) - d)).
Proof.
  intros s lo hi J x d C SZ Hd A. pose proof (proj1 C) as WF.
  pose proof A as (A1 & A2 & A3 & A4). destruct A4 as [[X1 X2]|[X1 [X2 X3]]].
  - rewrite <- (derivative_pieces s J x WF SZ A X1 d x Hd).
    destruct (deriv_active d s x J Hd WF SZ A X1) as [B1 _].
    destruct (deriv_inv d s Hd WF SZ) as (C1 & C2 & C3 & _).
    rewrite (call_piece _ _ _ (proj1 C1) C2 B1). unfold spiece. rewrite C3. reflexivity.
  - assert (E : x = lo).
    { destruct C as (_ & _ & E1 & _). rewrite X1, <- X2. exact E1. }
    rewrite E, X3. apply (deriv_at_start s lo hi); assumption.
Qed.

Lemma dFn_agree : forall d q F G, (forall us, length us = (d + q)%nat -> F us = G us) ->
  forall us, length us = q -> dFn d F us = dFn d G us.
Proof.
  induction d as [|d IH]; intros q F G H us L; [apply H; exact L|].
  simpl. apply (IH q); [|exact L]. intros vs Lv. unfold dF. rewrite !H by (simpl; lia). reflexivity.
Qed.

Section Joined.
Variables (P Q : bspline) (p n : nat) (lo tau hi : R).
Hypothesis CP : clamped_on (sbasis P) lo tau.
Hypothesis CQ : clamped_on (sbasis Q) tau hi.
Hypothesis ZP : sized P.
Hypothesis ZQ : sized Q.
Hypothesis DP : degree (sbasis P) = p.
Hypothesis DQ : degree (sbasis Q) = p.
Hypothesis Hn1 : (1 <= n)%nat.
Hypothesis Hn2 : (n <= p + 1)%nat.
Hypothesis AGREE : forall d, (d + n <= p)%nat -> call (derivative P d) tau = call (derivative Q d) tau.
Let a := (length (knots (sbasis P)) - (p + 1))%nat.

(** which piece is active *)
Lemma joined_active : forall x J, active (jbasis P Q p n) x J ->
  (x <= tau /\ (J < a)%nat /\ active (sbasis P) x J) \/
  (tau < x /\ (a <= J)%nat /\ active (sbasis Q) x (J - a + (p + 1 - n))).
Proof.
  intros x J A. pose proof (actint_active _ _ _ A) as AI.
  destruct A as (A1 & A2 & A3 & A4). change (degree (jbasis P Q p n)) with p in *.
  assert (LP : (2 * p + 2 <= length (knots (sbasis P)))%nat).
  { destruct CP as ((_ & L) & _). rewrite DP in L. exact L. }
  assert (A0 : (p < a)%nat) by (unfold a; lia).
  destruct (le_lt_dec a J) as [H|H].
  - right. destruct (jb_int_right P Q p n lo tau hi CP CQ DP DQ Hn1 Hn2 J AI H) as [G B]. fold a in G, B.
    destruct A4 as [[X1 X2]|[_ [_ X]]]; [|lia].
    assert (TX : tau < x).
    { apply Rle_lt_trans with (kn (jbasis P Q p n) J); [|exact X1].
      destruct (le_lt_dec (a + n) J); [left; eapply jb_above; eauto; lia|].
      rewrite (jb_mid P Q p n lo tau hi CP CQ DP DQ Hn1 Hn2) by (fold a; lia). lra. }
    split; [exact TX|]. split; [exact H|].
    destruct B as (B1 & B2 & B3). apply active_inside; [exact B1|exact B2|].
    rewrite !(jb_right P Q p n lo tau hi CP CQ DP DQ Hn1 Hn2) in X1, X2 by (fold a; lia). fold a in X1, X2.
    unfold kn. split; [exact X1|].
    replace (J + 1 - a + (p + 1 - n))%nat with (J - a + (p + 1 - n) + 1)%nat in X2 by lia. exact X2.
  - left. pose proof (jb_int_left P Q p n lo tau hi CP CQ DP DQ Hn1 Hn2 J AI H) as B.
    assert (TX : x <= tau).
    { apply Rle_trans with (kn (jbasis P Q p n) (J + 1)).
      - destruct A4 as [[X1 X2]|[X1 _]]; [exact X2|lra].
      - destruct (Nat.eq_dec (J + 1) a) as [E|E].
        + rewrite E, (jb_mid P Q p n lo tau hi CP CQ DP DQ Hn1 Hn2) by (fold a; lia). lra.
        + left. apply (jb_below P Q p n lo tau hi CP CQ DP DQ Hn1 Hn2). fold a. lia. }
    split; [exact TX|]. split; [exact H|].
    destruct B as (B1 & B2 & B3). split; [exact B1|]. split; [exact B2|]. split; [exact B3|].
    rewrite !(jb_left P Q p n lo tau hi CP CQ DP DQ Hn1 Hn2) in A4 by (fold a; lia). rewrite DP. exact A4.
Qed.

Theorem jspline_deriv : forall d x, (d <= p)%nat -> lo <= x <= hi ->
  call (derivative (jspline P Q p n) d) x
  = if Rle_dec x tau then call (derivative P d) x else call (derivative Q d) x.
Proof.
  intros d x Hd Hx.
  assert (CB := jb_clamped P Q p n lo tau hi CP CQ DP DQ Hn1 Hn2).
  assert (SB := jb_sorted P Q p n lo tau hi CP CQ DP DQ Hn1 Hn2).
  destruct (active_exists (jbasis P Q p n) x (proj1 CB)) as [J A].
  { apply (clamped_in _ _ _ _ CB). exact Hx. }
  rewrite (deriv_call (jspline P Q p n) lo hi J x d CB (span_sized _ _) Hd A).
  change (degree (sbasis (jspline P Q p n))) with p.
  assert (JJ := jform_joins P Q p n lo tau hi CP CQ ZP ZQ DP DQ Hn1 Hn2 AGREE).
  assert (E : forall us, length us = p -> spiece (jspline P Q p n) J us = jform P Q p n J us).
  { intros us L. apply (span_piece (jbasis P Q p n) (jform P Q p n) J us SB JJ (actint_active _ _ _ A)). exact L. }
  rewrite (dFn_agree d (p - d) _ (jform P Q p n J)); [|intros us L; apply E; lia|apply repeat_length].
  destruct (joined_active x J A) as [(X & HJ & B)|(X & HJ & B)].
  - destruct (Rle_dec x tau) as [_|F]; [|lra].
    rewrite (jform_left P Q p n lo tau hi CP CQ DP DQ Hn1 Hn2 J HJ). rewrite (deriv_call P lo tau J x d CP ZP ltac:(lia) B). rewrite DP. reflexivity.
  - destruct (Rle_dec x tau) as [F|_]; [lra|].
    rewrite (jform_right P Q p n lo tau hi CP CQ DP DQ Hn1 Hn2 J HJ). fold a.
    rewrite (deriv_call Q tau hi _ x d CQ ZQ ltac:(lia) B). rewrite DQ. reflexivity.
Qed.

(** stacked coefficients on the basis with degree+1 copies of the joint *)
Theorem stacked_call : n = (p + 1)%nat -> forall x, lo <= x <= hi ->
  call (mkS (jbasis P Q p n) (coeffs P ++ coeffs Q)) x = if Rle_dec x tau then call P x else call Q x.
Proof.
  intros En x Hx.
  assert (CB := jb_clamped P Q p n lo tau hi CP CQ DP DQ Hn1 Hn2).
  assert (SB := jb_sorted P Q p n lo tau hi CP CQ DP DQ Hn1 Hn2).
  assert (LB := jb_len P Q p n lo tau hi CP CQ DP DQ Hn1 Hn2).
  assert (LP : (2 * p + 2 <= length (knots (sbasis P)))%nat).
  { destruct CP as ((_ & L) & _). rewrite DP in L. exact L. }
  assert (LQ : (2 * p + 2 <= length (knots (sbasis Q)))%nat).
  { destruct CQ as ((_ & L) & _). rewrite DQ in L. exact L. }
  pose proof ZP as ZP'. pose proof ZQ as ZQ'. unfold sized in ZP', ZQ'. rewrite DP in ZP'. rewrite DQ in ZQ'.
  set (r := mkS (jbasis P Q p n) (coeffs P ++ coeffs Q)).
  assert (ZR : sized r).
  { unfold sized, r. cbn [sbasis coeffs]. change (degree (jbasis P Q p n)) with p. rewrite LB, app_length. lia. }
  destruct (active_exists (jbasis P Q p n) x (proj1 CB)) as [J A].
  { apply (clamped_in _ _ _ _ CB). exact Hx. }
  pose proof A as (A1 & A2 & A3 & A4). change (degree (jbasis P Q p n)) with p in *.
  destruct (joined_active x J A) as [(X & HJ & B)|(X & HJ & B)].
  - destruct (Rle_dec x tau) as [_|F]; [|lra].
    assert (E : cut r 0 (length (knots (sbasis P))) = P).
    { apply bspline_eq.
      - unfold cut. cbn. rewrite Nat.sub_0_r. rewrite En.
        replace (length (knots (sbasis P)) - (p + 1) + (p + 1))%nat with (length (knots (sbasis P))) by lia.
        rewrite firstn_all. rewrite firstn_app, Nat.sub_diag, firstn_O, app_nil_r. apply firstn_all.
      - unfold cut. cbn. symmetry. exact DP.
      - unfold cut. cbn. rewrite Nat.sub_0_r.
        replace (length (knots (sbasis P)) - p - 1)%nat with (length (coeffs P)) by lia.
        rewrite firstn_app, Nat.sub_diag, firstn_O, app_nil_r. apply firstn_all. }
    rewrite <- (cut_call r 0 (length (knots (sbasis P))) x J SB ZR); [rewrite E; reflexivity| |exact A| | |].
    + unfold r. cbn [sbasis]. rewrite LB. unfold a in *. lia.
    + change (degree (sbasis r)) with p. lia.
    + change (degree (sbasis r)) with p. unfold a in HJ. lia.
    + right. reflexivity.
  - destruct (Rle_dec x tau) as [F|_]; [lra|].
    assert (E : cut r a (length (knots (sbasis r))) = Q).
    { assert (LR : length (knots (sbasis r)) = (a + length (knots (sbasis Q)))%nat).
      { unfold r. cbn [sbasis]. rewrite LB. unfold a. lia. }
      apply bspline_eq.
      - apply list_nth_ext.
        + rewrite cut_len by lia. rewrite LR. lia.
        + rewrite cut_len by lia. intros i Hi.
          change (kn (sbasis (cut r a (length (knots (sbasis r))))) i = nth i (knots (sbasis Q)) 0).
          rewrite cut_kn by lia. unfold r. cbn [sbasis].
          rewrite (jb_right P Q p n lo tau hi CP CQ DP DQ Hn1 Hn2) by (fold a; lia). fold a. f_equal. lia.
      - unfold cut. cbn. symmetry. exact DQ.
      - unfold cut. rewrite LR. cbn [coeffs sbasis r]. change (degree (jbasis P Q p n)) with p.
        rewrite skipn_app. replace (a - length (coeffs P))%nat with 0%nat by (unfold a; lia).
        rewrite skipn_all2 by (unfold a; lia). simpl skipn. simpl app.
        replace (a + length (knots (sbasis Q)) - p - 1 - a)%nat with (length (coeffs Q)) by lia.
        apply firstn_all. }
    rewrite <- (cut_call r a (length (knots (sbasis r))) x J SB ZR); [rewrite E; reflexivity| |exact A| | |].
    + lia.
    + change (degree (sbasis r)) with p. destruct B as (B1 & _). rewrite DQ in B1. lia.
    + change (degree (sbasis r)) with p. unfold r. cbn [sbasis]. lia.
    + left. destruct A4 as [[Y _]|[_ [_ Y]]]; [exact Y|]. unfold a in *. lia.
Qed.
End Joined.
