(** Calculus within an interval, holonomic vehicles, tool, arrival tests. *)
From Coq Require Import Reals List Arith Bool String Lia Lra Psatz.
From Verif Require Import Angle_Model Angle_Proofs Vehicle_Model Vehicle_Spec.
Import ListNotations.
Open Scope R_scope.

(** ** deriv_in through extensions *)

Definition clampR (lo hi t : R) : R := Rmax lo (Rmin hi t).
Lemma clamp_id : forall lo hi t, lo <= t <= hi -> clampR lo hi t = t.
Proof. intros lo hi t H. unfold clampR. rewrite Rmin_right by lra. rewrite Rmax_right by lra. reflexivity. Qed.
Lemma clamp_in : forall lo hi t, lo <= hi -> lo <= clampR lo hi t <= hi.
Proof.
  intros lo hi t H. unfold clampR. split; [apply Rmax_l|].
  apply Rmax_lub; [lra|apply Rmin_l].
Qed.
Lemma clamp_close : forall lo hi t u, lo <= t <= hi -> Rabs (clampR lo hi u - t) <= Rabs (u - t).
Proof.
  intros lo hi t u H. unfold clampR. unfold Rmax, Rmin.
  destruct (Rle_dec hi u); destruct (Rle_dec lo _); unfold Rabs; repeat destruct Rcase_abs; lra.
Qed.

(** the linear extension of f beyond the ends *)
Definition ext (lo hi : R) (f : R -> R) (d : R) (t : R) : R :=
  f (clampR lo hi t) + d * (t - clampR lo hi t).

Lemma ext_deriv : forall lo hi f t d, lo <= t <= hi -> deriv_in lo hi f t d ->
  derivable_pt_lim (ext lo hi f d) t d.
Proof.
  intros lo hi f t d H D eps E. destruct (D eps E) as (delta & P & Q).
  exists (mkposreal delta P). intros h N S. cbn in S.
  unfold ext. rewrite (clamp_id lo hi t H).
  set (c := clampR lo hi (t + h)).
  assert (C : lo <= c <= hi) by (apply clamp_in; lra).
  assert (K : Rabs (c - t) <= Rabs h).
  { pose proof (clamp_close lo hi t (t + h) H) as K. replace (t + h - t) with h in K by ring. exact K. }
  destruct (Req_dec c t) as [Z|Z].
  - rewrite Z. replace ((f t + d * (t + h - t) - (f t + d * (t - t))) / h - d) with 0 by (field; exact N).
    rewrite Rabs_R0. exact E.
  - assert (M := Q (c - t)). replace (t + (c - t)) with c in M by ring.
    assert (M' : Rabs ((f c - f t) / (c - t) - d) < eps) by (apply M; lra).
    replace ((f c + d * (t + h - c) - (f t + d * (t - t))) / h - d)
      with (((f c - f t) / (c - t) - d) * ((c - t) / h)) by (field; lra).
    rewrite Rabs_mult.
    assert (R1 : Rabs ((c - t) / h) <= 1).
    { unfold Rdiv. rewrite Rabs_mult, Rabs_inv. apply (Rmult_le_reg_r (Rabs h)); [apply Rabs_pos_lt; exact N|].
      rewrite Rmult_assoc, Rinv_l by (apply Rabs_no_R0; exact N). lra. }
    assert (0 <= Rabs ((f c - f t) / (c - t) - d)) by apply Rabs_pos.
    apply Rle_lt_trans with (Rabs ((f c - f t) / (c - t) - d) * 1); [apply Rmult_le_compat_l; lra|lra].
Qed.
Lemma ext_same : forall lo hi f d t, lo <= t <= hi -> ext lo hi f d t = f t.
Proof. intros lo hi f d t H. unfold ext. rewrite clamp_id by exact H. ring. Qed.

(** a function that agrees on the interval with a differentiable one *)
Lemma deriv_of_lim : forall lo hi f g t d, lo <= t <= hi ->
  (forall u, lo <= u <= hi -> g u = f u) -> derivable_pt_lim g t d -> deriv_in lo hi f t d.
Proof.
  intros lo hi f g t d H E D eps P. destruct (D eps P) as (delta & Q).
  exists delta. split; [apply cond_pos|]. intros h N S I.
  rewrite <- !E by lra. apply Q; assumption.
Qed.

Lemma deriv_unique : forall lo hi f t d e, lo < hi -> lo <= t <= hi ->
  deriv_in lo hi f t d -> deriv_in lo hi f t e -> d = e.
Proof.
  intros lo hi f t d e W H A B. destruct (Req_dec d e) as [X|X]; [exact X|exfalso].
  assert (P : 0 < Rabs (d - e) / 2) by (pose proof (Rabs_pos_lt (d - e)); lra).
  destruct (A _ P) as (d1 & P1 & Q1). destruct (B _ P) as (d2 & P2 & Q2).
  assert (exists h, h <> 0 /\ Rabs h < d1 /\ Rabs h < d2 /\ lo <= t + h <= hi) as (h & N & S1 & S2 & I).
  { destruct (Rlt_dec t hi) as [L|L].
    - exists (Rmin (hi - t) (Rmin d1 d2 / 2)).
      assert (0 < Rmin d1 d2) by (apply Rmin_pos; assumption).
      pose proof (Rmin_l d1 d2). pose proof (Rmin_r d1 d2).
      pose proof (Rmin_l (hi - t) (Rmin d1 d2 / 2)). pose proof (Rmin_r (hi - t) (Rmin d1 d2 / 2)).
      assert (0 < Rmin (hi - t) (Rmin d1 d2 / 2)) by (apply Rmin_pos; lra).
      rewrite Rabs_right by lra. repeat split; lra.
    - exists (- Rmin (t - lo) (Rmin d1 d2 / 2)).
      assert (0 < Rmin d1 d2) by (apply Rmin_pos; assumption).
      pose proof (Rmin_l d1 d2). pose proof (Rmin_r d1 d2).
      pose proof (Rmin_l (t - lo) (Rmin d1 d2 / 2)). pose proof (Rmin_r (t - lo) (Rmin d1 d2 / 2)).
      assert (0 < Rmin (t - lo) (Rmin d1 d2 / 2)) by (apply Rmin_pos; lra).
      rewrite Rabs_Ropp, Rabs_right by lra. repeat split; lra. }
  pose proof (Q1 h N S1 I) as U. pose proof (Q2 h N S2 I) as V.
  set (q := (f (t + h) - f t) / h) in *.
  assert (Rabs (d - e) <= Rabs (q - d) + Rabs (q - e)).
  { replace (d - e) with (- (q - d) + (q - e)) by ring.
    eapply Rle_trans; [apply Rabs_triang|]. rewrite Rabs_Ropp. lra. }
  lra.
Qed.

(** zero derivative everywhere: constant *)
Lemma deriv_zero_const : forall lo hi f, (forall t, lo <= t <= hi -> deriv_in lo hi f t 0) ->
  forall s t, lo <= s <= hi -> lo <= t <= hi -> f s = f t.
Proof.
  intros lo hi f Z s t S T.
  set (g := fun u => f (clampR lo hi u)).
  assert (D : forall u, derivable_pt_lim g u 0).
  { intros u eps E. destruct (Z (clampR lo hi u)) with eps as (delta & P & Q); [apply clamp_in; lra|exact E|].
    exists (mkposreal delta P). intros h N L. cbn in L. unfold g.
    set (c := clampR lo hi u). set (e := clampR lo hi (u + h)).
    assert (C : lo <= c <= hi) by (apply clamp_in; lra).
    assert (C' : lo <= e <= hi) by (apply clamp_in; lra).
    assert (K : Rabs (e - c) <= Rabs h).
    { unfold e, c, clampR, Rmax, Rmin.
      destruct (Rle_dec hi u); destruct (Rle_dec hi (u + h)); repeat destruct (Rle_dec lo _);
        unfold Rabs; repeat destruct Rcase_abs; lra. }
    destruct (Req_dec e c) as [W|W].
    - rewrite W. replace ((f c - f c) / h - 0) with 0 by (field; exact N). rewrite Rabs_R0. exact E.
    - assert (M := Q (e - c)). fold c in M. replace (c + (e - c)) with e in M by ring.
      assert (M' : Rabs ((f e - f c) / (e - c) - 0) < eps) by (apply M; lra).
      replace ((f e - f c) / h - 0) with (((f e - f c) / (e - c) - 0) * ((e - c) / h)) by (field; lra).
      rewrite Rabs_mult.
      assert (R1 : Rabs ((e - c) / h) <= 1).
      { unfold Rdiv. rewrite Rabs_mult, Rabs_inv. apply (Rmult_le_reg_r (Rabs h)); [apply Rabs_pos_lt; exact N|].
        rewrite Rmult_assoc, Rinv_l by (apply Rabs_no_R0; exact N). lra. }
      assert (0 <= Rabs ((f e - f c) / (e - c) - 0)) by apply Rabs_pos.
      apply Rle_lt_trans with (Rabs ((f e - f c) / (e - c) - 0) * 1); [apply Rmult_le_compat_l; lra|lra]. }
  assert (pr : derivable g) by (intros u; exists 0; apply D).
  assert (E : g s = g t).
  { apply (null_derivative_1 g pr). intros u. apply derive_pt_eq_0, D. }
  unfold g in E. rewrite !clamp_id in E by assumption. exact E.
Qed.

(** rules *)
Lemma deriv_ext : forall lo hi f g t d, lo <= t <= hi -> (forall u, lo <= u <= hi -> f u = g u) ->
  deriv_in lo hi f t d -> deriv_in lo hi g t d.
Proof.
  intros lo hi f g t d H E D eps P. destruct (D eps P) as (delta & Q & R0).
  exists delta. split; [exact Q|]. intros h N S I. rewrite <- !E by lra. apply R0; assumption.
Qed.
Lemma deriv_const : forall lo hi c t, deriv_in lo hi (fun _ => c) t 0.
Proof.
  intros lo hi c t eps E. exists 1. split; [lra|]. intros h N _ _.
  replace ((c - c) / h - 0) with 0 by (field; exact N). rewrite Rabs_R0. exact E.
Qed.
Lemma deriv_id : forall lo hi t, deriv_in lo hi (fun u => u) t 1.
Proof.
  intros lo hi t eps E. exists 1. split; [lra|]. intros h N _ _.
  replace ((t + h - t) / h - 1) with 0 by (field; exact N). rewrite Rabs_R0. exact E.
Qed.
Section Rules.
Variables lo hi t : R.
Hypothesis H : lo <= t <= hi.
Lemma deriv_plus : forall f g d e, deriv_in lo hi f t d -> deriv_in lo hi g t e ->
  deriv_in lo hi (fun u => f u + g u) t (d + e).
Proof.
  intros f g d e F G.
  apply (deriv_of_lim _ _ _ (fun u => ext lo hi f d u + ext lo hi g e u)); [exact H| |].
  - intros u U. rewrite !ext_same by exact U. reflexivity.
  - apply derivable_pt_lim_plus; apply ext_deriv; assumption.
Qed.
Lemma deriv_minus : forall f g d e, deriv_in lo hi f t d -> deriv_in lo hi g t e ->
  deriv_in lo hi (fun u => f u - g u) t (d - e).
Proof.
  intros f g d e F G.
  apply (deriv_of_lim _ _ _ (fun u => ext lo hi f d u - ext lo hi g e u)); [exact H| |].
  - intros u U. rewrite !ext_same by exact U. reflexivity.
  - apply derivable_pt_lim_minus; apply ext_deriv; assumption.
Qed.
Lemma deriv_mult : forall f g d e, deriv_in lo hi f t d -> deriv_in lo hi g t e ->
  deriv_in lo hi (fun u => f u * g u) t (d * g t + f t * e).
Proof.
  intros f g d e F G.
  apply (deriv_of_lim _ _ _ (fun u => ext lo hi f d u * ext lo hi g e u)); [exact H| |].
  - intros u U. rewrite !ext_same by exact U. reflexivity.
  - pose proof (derivable_pt_lim_mult (ext lo hi f d) (ext lo hi g e) t d e) as M.
    rewrite !ext_same in M by exact H. apply M; apply ext_deriv; assumption.
Qed.
Lemma deriv_comp : forall f g d e, deriv_in lo hi f t d -> derivable_pt_lim g (f t) e ->
  deriv_in lo hi (fun u => g (f u)) t (e * d).
Proof.
  intros f g d e F G.
  apply (deriv_of_lim _ _ _ (fun u => g (ext lo hi f d u))); [exact H| |].
  - intros u U. rewrite !ext_same by exact U. reflexivity.
  - apply (derivable_pt_lim_comp (ext lo hi f d) g); [apply ext_deriv; assumption|].
    rewrite ext_same by exact H. exact G.
Qed.
Lemma deriv_scal : forall f d c, deriv_in lo hi f t d -> deriv_in lo hi (fun u => c * f u) t (c * d).
Proof.
  intros f d c F. replace (c * d) with (0 * f t + c * d) by ring.
  apply (deriv_mult (fun _ => c) f 0 d); [apply deriv_const|exact F].
Qed.
Lemma deriv_opp : forall f d, deriv_in lo hi f t d -> deriv_in lo hi (fun u => - f u) t (- d).
Proof.
  intros f d F. replace (- d) with (-1 * d) by ring.
  apply (deriv_ext _ _ (fun u => -1 * f u)); [exact H| |apply deriv_scal; exact F].
  intros u _. ring.
Qed.
Lemma deriv_div : forall f g d e, g t <> 0 -> deriv_in lo hi f t d -> deriv_in lo hi g t e ->
  deriv_in lo hi (fun u => f u / g u) t ((d * g t - f t * e) / (g t) ^ 2).
Proof.
  intros f g d e N F G.
  apply (deriv_of_lim _ _ _ (fun u => ext lo hi f d u / ext lo hi g e u)); [exact H| |].
  - intros u U. rewrite !ext_same by exact U. reflexivity.
  - pose proof (derivable_pt_lim_div (ext lo hi f d) (ext lo hi g e) t d e) as M.
    rewrite !ext_same in M by exact H.
    replace ((d * g t - f t * e) / g t ^ 2) with ((d * g t - e * f t) / (g t)²) by (unfold Rsqr; field; exact N).
    apply M; [apply ext_deriv; assumption|apply ext_deriv; assumption|exact N].
Qed.
Lemma deriv_pow2 : forall f d, deriv_in lo hi f t d -> deriv_in lo hi (fun u => f u ^ 2) t (2 * f t * d).
Proof.
  intros f d F. replace (2 * f t * d) with (d * f t + f t * d) by ring.
  apply (deriv_ext _ _ (fun u => f u * f u)); [exact H|intros; ring|apply deriv_mult; assumption].
Qed.
Lemma deriv_eq : forall f d e, deriv_in lo hi f t d -> d = e -> deriv_in lo hi f t e.
Proof. intros f d e F E. subst e. exact F. Qed.
End Rules.

(** two antiderivatives that agree at one time agree everywhere *)
Lemma antideriv_unique : forall lo hi f g d, 
  (forall t, lo <= t <= hi -> deriv_in lo hi f t (d t)) ->
  (forall t, lo <= t <= hi -> deriv_in lo hi g t (d t)) ->
  forall s, lo <= s <= hi -> f s = g s -> forall t, lo <= t <= hi -> f t = g t.
Proof.
  intros lo hi f g d F G s S E t T.
  assert (K : f t - g t = f s - g s).
  { apply (deriv_zero_const lo hi (fun u => f u - g u)); try assumption.
    intros u U. replace 0 with (d u - d u) by ring. apply deriv_minus; auto. }
  lra.
Qed.

(** changing the time scale *)
Lemma deriv_rescale : forall lo hi T f t d, 0 < T -> T * lo <= t <= T * hi ->
  deriv_in lo hi f (t / T) d -> deriv_in (T * lo) (T * hi) (fun u => f (u / T)) t (d / T).
Proof.
  intros lo hi T f t d P I D eps E.
  assert (I' : lo <= t / T <= hi).
  { split; [apply (Rmult_le_reg_l T); [exact P|]|apply (Rmult_le_reg_l T); [exact P|]];
      replace (T * (t / T)) with t by (field; lra); lra. }
  destruct (D (eps * T)) as (delta & Q & M); [apply Rmult_lt_0_compat; assumption|].
  exists (delta * T). split; [apply Rmult_lt_0_compat; assumption|].
  intros h N S J.
  assert (N' : h / T <> 0) by (intros Z; apply N; replace h with (h / T * T) by (field; lra); rewrite Z; ring).
  assert (S' : Rabs (h / T) < delta).
  { unfold Rdiv. rewrite Rabs_mult, Rabs_inv, (Rabs_right T) by lra.
    apply (Rmult_lt_reg_r T); [exact P|]. rewrite Rmult_assoc, Rinv_l by lra. lra. }
  assert (J' : lo <= t / T + h / T <= hi).
  { replace (t / T + h / T) with ((t + h) / T) by (field; lra).
    split; apply (Rmult_le_reg_l T); try exact P; replace (T * ((t + h) / T)) with (t + h) by (field; lra); lra. }
  specialize (M (h / T) N' S' J').
  replace ((t + h) / T) with (t / T + h / T) by (field; lra).
  replace ((f (t / T + h / T) - f (t / T)) / h - d / T)
    with (((f (t / T + h / T) - f (t / T)) / (h / T) - d) * / T) by (field; lra).
  rewrite Rabs_mult, Rabs_inv, (Rabs_right T) by lra.
  apply (Rmult_lt_reg_r T); [exact P|]. rewrite Rmult_assoc, Rinv_l by lra. lra.
Qed.
