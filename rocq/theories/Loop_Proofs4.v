(** Joining motions: derivatives within adjacent intervals, bounds from
    derivatives, linear interpolation. *)
From Coq Require Import Reals Lra Lia List Arith.
From Verif Require Import Vehicle_Model Vehicle_Spec Vehicle_Proofs Quad_Proofs.
Import ListNotations.
Local Open Scope R_scope.

Lemma deriv_widen_r : forall lo mid hi f t d, lo <= t < mid -> mid <= hi -> deriv_in lo mid f t d -> deriv_in lo hi f t d.
Proof.
  intros lo mid hi f t d I M D eps E. destruct (D eps E) as (delta & P & Q).
  exists (Rmin delta (mid - t)). split; [apply Rmin_pos; lra|].
  intros h N L J. pose proof (Rmin_l delta (mid - t)). pose proof (Rmin_r delta (mid - t)).
  apply Q; [exact N|lra|]. pose proof (Rle_abs h). lra.
Qed.
Lemma deriv_widen_l : forall lo mid hi f t d, mid < t <= hi -> lo <= mid -> deriv_in mid hi f t d -> deriv_in lo hi f t d.
Proof.
  intros lo mid hi f t d I M D eps E. destruct (D eps E) as (delta & P & Q).
  exists (Rmin delta (t - mid)). split; [apply Rmin_pos; lra|].
  intros h N L J. pose proof (Rmin_l delta (t - mid)). pose proof (Rmin_r delta (t - mid)).
  apply Q; [exact N|lra|]. pose proof (Rle_abs (- h)). rewrite Rabs_Ropp in H1. lra.
Qed.
Lemma deriv_join : forall lo mid hi f d, deriv_in lo mid f mid d -> deriv_in mid hi f mid d -> deriv_in lo hi f mid d.
Proof.
  intros lo mid hi f d A B eps E. destruct (A eps E) as (d1 & P1 & Q1). destruct (B eps E) as (d2 & P2 & Q2).
  exists (Rmin d1 d2). split; [apply Rmin_pos; assumption|].
  intros h N L J. pose proof (Rmin_l d1 d2). pose proof (Rmin_r d1 d2).
  destruct (Rle_dec h 0); [apply Q1|apply Q2]; try exact N; lra.
Qed.
Lemma deriv_glue : forall lo mid hi f v, lo <= mid <= hi ->
  (forall t, lo <= t <= mid -> deriv_in lo mid f t (v t)) ->
  (forall t, mid <= t <= hi -> deriv_in mid hi f t (v t)) ->
  forall t, lo <= t <= hi -> deriv_in lo hi f t (v t).
Proof.
  intros lo mid hi f v M A B t I. destruct (Rtotal_order t mid) as [L|[L|L]].
  - apply (deriv_widen_r lo mid hi); [lra|lra|apply A; lra].
  - subst t. apply deriv_join; [apply A; lra|apply B; lra].
  - apply (deriv_widen_l lo mid hi); [lra|lra|apply B; lra].
Qed.
Lemma deriv_shift : forall lo hi c f t d, deriv_in lo hi f (t - c) d -> deriv_in (lo + c) (hi + c) (fun u => f (u - c)) t d.
Proof.
  intros lo hi c f t d D eps E. destruct (D eps E) as (delta & P & Q). exists delta. split; [exact P|].
  intros h N L J. replace (t + h - c) with (t - c + h) by ring. apply Q; [exact N|exact L|lra].
Qed.

(** pieces of equal length one after the other *)
Fixpoint joined (U : R) (F : nat -> R -> R) (K : nat) (t : R) : R :=
  match K with
  | O => F 0%nat t
  | S k => if Rle_dec t (INR k * U) then joined U F k t else F k (t - INR k * U)
  end.

Lemma joined_at : forall U F K, 0 <= U -> (forall n, (S n < K)%nat -> F (S n) 0 = F n U) ->
  forall n t, (n < K)%nat -> INR n * U <= t <= INR (S n) * U -> joined U F K t = F n (t - INR n * U).
Proof.
  intros U F K PU. induction K as [|k IH]; intros C n t N I; [lia|].
  assert (IH' := IH (fun n H => C n ltac:(lia))). cbn [joined].
  destruct (Rle_dec t (INR k * U)) as [L|L].
  - destruct (Nat.eq_dec n k) as [->|NE].
    + assert (t = INR k * U) by lra. subst t. replace (INR k * U - INR k * U) with 0 by ring.
      destruct k as [|k]; [cbn [joined]; f_equal; cbn; ring|].
      rewrite (IH' k) by (rewrite ?S_INR in *; try lia; nra).
      rewrite C by lia. f_equal. rewrite S_INR. ring.
    + apply IH'; [lia|exact I].
  - assert (n = k).
    { destruct (Nat.eq_dec n k) as [E|E]; [exact E|]. exfalso. apply L.
      assert (S n <= k)%nat by lia. apply le_INR in H. apply Rle_trans with (INR (S n) * U); [lra|].
      apply Rmult_le_compat_r; lra. }
    subst n. reflexivity.
Qed.

Lemma joined_deriv : forall U F G K, 0 < U ->
  (forall n t, (n < K)%nat -> 0 <= t <= U -> deriv_in 0 U (F n) t (G n t)) ->
  (forall n, (S n < K)%nat -> F (S n) 0 = F n U /\ G (S n) 0 = G n U) ->
  forall t, 0 <= t <= INR K * U -> deriv_in 0 (INR K * U) (joined U F K) t (joined U G K t).
Proof.
  intros U F G K PU. induction K as [|k IH]; intros D C t I.
  - intros eps E. exists 1. split; [lra|]. intros h N _ J. cbn in I, J. exfalso. apply N. lra.
  - rewrite S_INR in *. pose proof (pos_INR k) as PK.
    assert (KU : 0 <= INR k * U) by (apply Rmult_le_pos; lra).
    assert (CF : forall n, (S n < S k)%nat -> F (S n) 0 = F n U) by (intros; apply C; lia).
    assert (CG : forall n, (S n < S k)%nat -> G (S n) 0 = G n U) by (intros; apply C; lia).
    assert (LO : forall u, u <= INR k * U -> forall H, joined U H (S k) u = joined U H k u).
    { intros u L H. cbn [joined]. destruct (Rle_dec u (INR k * U)); [reflexivity|lra]. }
    assert (HI : forall u, INR k * U <= u <= (INR k + 1) * U ->
      joined U F (S k) u = F k (u - INR k * U) /\ joined U G (S k) u = G k (u - INR k * U)).
    { intros u L. split; apply joined_at; try lra; try assumption; try lia; rewrite S_INR; exact L. }
    apply (deriv_glue 0 (INR k * U) ((INR k + 1) * U)); [split; nra| | |exact I].
    + intros u Iu. rewrite (LO u (proj2 Iu) G).
      apply (deriv_ext 0 (INR k * U) (joined U F k)); [exact Iu|intros; symmetry; apply LO; lra|].
      apply IH; [intros; apply D; [lia|assumption]|intros; apply C; lia|exact Iu].
    + intros u Iu. rewrite (proj2 (HI u Iu)).
      apply (deriv_ext (INR k * U) ((INR k + 1) * U) (fun w => F k (w - INR k * U)));
        [exact Iu|intros w Iw; symmetry; apply HI; exact Iw|].
      pose proof (deriv_shift 0 U (INR k * U) (F k) u (G k (u - INR k * U)) (D k (u - INR k * U) ltac:(lia) ltac:(lra))) as X.
      replace (0 + INR k * U) with (INR k * U) in X by ring.
      replace (U + INR k * U) with ((INR k + 1) * U) in X by ring. exact X.
Qed.

(** mean value *)
Lemma deriv_mean : forall lo hi f d, (forall t, lo <= t <= hi -> deriv_in lo hi f t (d t)) ->
  forall s t, lo <= s -> s < t -> t <= hi -> exists c, s < c < t /\ f t - f s = d c * (t - s).
Proof.
  intros lo hi f d D s t Ls Lst Lt.
  set (g := fun u => f (clampR lo hi u)).
  assert (CO : forall c, s <= c <= t -> continuity_pt g c).
  { intros c Hc eps P.
    destruct (deriv_cont lo hi f c (d c) ltac:(lra) (D c ltac:(lra)) eps P) as (r & R0 & K).
    exists r. split; [exact R0|]. intros u [_ Hu]. cbn in *. unfold R_dist in *. unfold g.
    rewrite (clamp_id lo hi c) by lra. apply K; [apply clamp_in; lra|].
    apply Rle_lt_trans with (Rabs (u - c)); [apply clamp_close; lra|exact Hu]. }
  assert (DE : forall c, s < c < t -> derivable_pt_lim g c (d c)).
  { intros c Hc eps P. destruct (D c ltac:(lra) eps P) as (delta & Q & K).
    assert (RP : 0 < Rmin delta (Rmin (c - s) (t - c))) by (repeat apply Rmin_pos; lra).
    exists (mkposreal _ RP). intros h N L. cbn in L.
    pose proof (Rmin_l delta (Rmin (c - s) (t - c))). pose proof (Rmin_r delta (Rmin (c - s) (t - c))).
    pose proof (Rmin_l (c - s) (t - c)). pose proof (Rmin_r (c - s) (t - c)).
    pose proof (Rle_abs h). pose proof (Rle_abs (- h)). rewrite Rabs_Ropp in H4.
    unfold g. rewrite !clamp_id by lra. apply K; [exact N|lra|lra]. }
  assert (pr1 : forall c, s < c < t -> derivable_pt g c) by (intros c Hc; exists (d c); apply DE, Hc).
  assert (pr2 : forall c, s < c < t -> derivable_pt id c) by (intros; apply derivable_pt_id).
  destruct (MVT g id s t pr1 pr2 ltac:(lra) CO ltac:(intros; apply derivable_continuous_pt, derivable_pt_id)) as (c & P & M).
  rewrite (derive_pt_eq_0 g c (d c) (pr1 c P) (DE c P)) in M.
  rewrite (derive_pt_eq_0 id c 1 (pr2 c P) (derivable_pt_lim_id c)) in M.
  unfold g, id in M. rewrite !clamp_id in M by lra.
  exists c. split; [exact P|]. lra.
Qed.

(** bounds on the derivative bound the increments *)
Lemma deriv_bounds : forall lo hi f d a b,
  (forall t, lo <= t <= hi -> deriv_in lo hi f t (d t)) -> (forall t, lo <= t <= hi -> a <= d t <= b) ->
  forall s t, lo <= s -> s <= t -> t <= hi -> a * (t - s) <= f t - f s <= b * (t - s).
Proof.
  intros lo hi f d a b D B s t Ls Lst Lt. destruct (Req_dec s t) as [E|E]; [subst; split; nra|].
  destruct (deriv_mean lo hi f d D s t Ls ltac:(lra) Lt) as (c & C & M). specialize (B c ltac:(lra)). split; nra.
Qed.
Lemma deriv_grows : forall lo hi f d, (forall t, lo <= t <= hi -> deriv_in lo hi f t (d t)) -> (forall t, lo <= t <= hi -> 0 <= d t) ->
  forall s t, lo <= s -> s <= t -> t <= hi -> f s <= f t.
Proof.
  intros lo hi f d D B s t Ls Lst Lt. destruct (Req_dec s t) as [E|E]; [subst; lra|].
  destruct (deriv_mean lo hi f d D s t Ls ltac:(lra) Lt) as (c & C & M). specialize (B c ltac:(lra)). nra.
Qed.
