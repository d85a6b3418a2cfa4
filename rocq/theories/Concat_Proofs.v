(** Proofs about the concatenation of two splines. *)
From Coq Require Import Reals Lra Lia List Permutation Arith ZArith.
From Verif Require Import Blossom Spline_Model Spline_Spec Spline_Proofs Spline_Proofs2 Spline_Proofs3 Spline_Proofs5
  Splop_Model Splop_Spec Splop_Proofs Splop_Proofs2 Span_Proofs End_Proofs Contact_Proofs Concat_Model.
Import ListNotations.
Local Open Scope R_scope.

(** ** derivatives of scaled splines *)
Lemma deriv1_scale : forall s a T t, (1 <= degree (sbasis s))%nat -> sized s ->
  derivative (mul_num (scale s T t) a) 1 = mul_num (scale (derivative s 1) T t) (a * / T).
Proof.
  intros s a T t Hp SZ. apply bspline_eq.
  - rewrite deriv1_knots. unfold mul_num, scale, scale_basis. cbn [sbasis knots].
    rewrite deriv1_knots. unfold trim. destruct (knots (sbasis s)) as [|k ks]; [reflexivity|].
    cbn [map tl]. clear. induction ks as [|k1 [|k2 ks] IH]; [reflexivity|reflexivity|].
    change (removelast (map (fun k0 => k0 * T + t) (k1 :: k2 :: ks))) with
      (k1 * T + t :: removelast (map (fun k0 => k0 * T + t) (k2 :: ks))). rewrite IH. reflexivity.
  - rewrite deriv1_degree. unfold mul_num, scale, scale_basis. cbn [sbasis degree].
    rewrite deriv1_degree. reflexivity.
  - unfold derivative, mul_num, scale, scale_basis. cbn [sbasis coeffs knots degree deriv_loop].
    rewrite Nat.sub_0_r. unfold deriv_step. rewrite map_length, map_map.
    apply map_ext_in. intros j Hj. apply in_seq in Hj. unfold sized in SZ.
    set (p := degree (sbasis s)) in *. set (ks := knots (sbasis s)) in *. set (c := coeffs s) in *.
    assert (N : forall i, (i + 2 < length ks)%nat ->
       nth i (trim (map (fun k : R => k * T + t) ks)) 0 = nth i (trim ks) 0 * T + t).
    { intros i Hi. rewrite nth_trim by (rewrite map_length; lia). rewrite nth_trim by lia.
      rewrite (nth_indep _ 0 (0 * T + t)) by (rewrite map_length; lia).
      apply (map_nth (fun k => k * T + t)). }
    rewrite !N by lia.
    assert (M : forall i, nth i (map (fun c : R => a * c) c) 0 = a * nth i c 0).
    { intros i. rewrite <- (map_nth (fun c => a * c)). rewrite Rmult_0_r. reflexivity. }
    rewrite !M.
    replace (nth (j + p) (trim ks) 0 * T + t - (nth j (trim ks) 0 * T + t))
      with ((nth (j + p) (trim ks) 0 - nth j (trim ks) 0) * T) by ring.
    unfold Rdiv. rewrite Rinv_mult. ring.
Qed.

Lemma mul_num_1 : forall s, mul_num s 1 = s.
Proof.
  intros [b c]. unfold mul_num. simpl. f_equal. rewrite <- (map_id c) at 2. apply map_ext. intros. ring.
Qed.
Lemma scale_deriv : forall d s T t, (d <= degree (sbasis s))%nat -> well_formed (sbasis s) -> sized s ->
  derivative (scale s T t) d = mul_num (scale (derivative s d) T t) (/ T ^ d).
Proof.
  induction d as [|d IH]; intros s T t Hd WF SZ.
  - simpl. rewrite Rinv_1, mul_num_1. reflexivity.
  - rewrite (derivative_iter (scale s T t) d), (derivative_iter s d). rewrite IH by (auto; lia).
    destruct (deriv_inv d s ltac:(lia) WF SZ) as (A & B & C & _).
    rewrite deriv1_scale by (auto; lia). f_equal. simpl. rewrite Rinv_mult. ring.
Qed.
Theorem scale_deriv_call : forall s T t d x, 0 < T -> (d <= degree (sbasis s))%nat ->
  well_formed (sbasis s) -> sized s ->
  call (derivative (scale s T t) d) (x * T + t) = call (derivative s d) x / T ^ d.
Proof.
  intros s T t d x HT Hd WF SZ. rewrite scale_deriv by auto. rewrite mul_num_call, scale_call by exact HT.
  unfold Rdiv. ring.
Qed.

Lemma scale_clamped : forall b lo hi T t, 0 < T -> clamped_on b lo hi ->
  clamped_on (scale_basis b T t) (lo * T + t) (hi * T + t).
Proof.
  intros b lo hi T t HT ((ND & L) & (C1 & C2 & C3 & C4) & E1 & E2).
  assert (K : forall i, (i < length (knots b))%nat ->
     nth i (knots (scale_basis b T t)) 0 = nth i (knots b) 0 * T + t) by (intros; apply (scale_kn b T t i); auto).
  assert (LL : length (knots (scale_basis b T t)) = length (knots b)) by (unfold scale_basis; cbn; apply map_length).
  assert (DD : degree (scale_basis b T t) = degree b) by reflexivity.
  split; [split|split; [unfold clamped|split]]; rewrite ?LL, ?DD; auto.
  - intros i j H1 H2. rewrite LL in H2. rewrite !K by lia. specialize (ND i j H1 H2).
    apply Rplus_le_compat_r. apply Rmult_le_compat_r; [lra|exact ND].
  - rewrite !K by lia. rewrite C1, C2. repeat split; try reflexivity.
    + apply Rplus_lt_compat_r. apply Rmult_lt_compat_r; assumption.
    + rewrite <- C2. apply Rplus_lt_compat_r. apply Rmult_lt_compat_r; assumption.
  - rewrite K by lia. rewrite E1. reflexivity.
  - rewrite K by lia. rewrite E2. reflexivity.
Qed.
Lemma scale_sized : forall s T t, sized s -> sized (scale s T t).
Proof. intros s T t H. unfold sized, scale, scale_basis in *. cbn. rewrite map_length. exact H. Qed.

(** ** splines that agree near their common right end *)
Definition lastint (b : bbasis) : nat := (length (knots b) - degree b - 2)%nat.

Lemma last_active : forall b lo hi x, clamped_on b lo hi -> kn b (lastint b) < x <= hi ->
  active b x (lastint b).
Proof.
  intros b lo hi x ((ND & L) & (C1 & C2 & C3 & C4) & E1 & E2) Hx. unfold lastint in *.
  apply active_inside; try lia. split; [apply Hx|].
  replace (length (knots b) - degree b - 2 + 1)%nat with (length (knots b) - degree b - 1)%nat by lia.
  unfold kn. rewrite C2, E2. apply Hx.
Qed.
Lemma last_below : forall b lo hi, clamped_on b lo hi -> kn b (lastint b) < hi.
Proof.
  intros b lo hi ((ND & L) & (C1 & C2 & C3 & C4) & E1 & E2). unfold lastint, kn. rewrite <- E2, <- C2. exact C4.
Qed.

Lemma deriv_at_end : forall s lo hi d, clamped_on (sbasis s) lo hi -> sized s -> (d <= degree (sbasis s))%nat ->
  call (derivative s d) hi = falling (degree (sbasis s)) d *
     dFn d (spiece s (lastint (sbasis s))) (repeat hi (degree (sbasis s) - d)).
Proof.
  intros s lo hi d C SZ Hd. pose proof (last_below _ _ _ C) as LB.
  pose proof (last_active _ _ _ hi C (conj LB (Rle_refl _))) as A.
  pose proof (proj1 C) as WF.
  rewrite <- (derivative_pieces s _ hi WF SZ A LB d hi Hd).
  destruct (deriv_active d s hi _ Hd WF SZ A LB) as [A1 _].
  destruct (deriv_inv d s Hd WF SZ) as (B1 & B2 & B3 & _).
  rewrite (call_piece _ _ _ (proj1 B1) B2 A1). unfold spiece. rewrite B3. reflexivity.
Qed.

Lemma first_active : forall b lo hi, clamped_on b lo hi -> active b lo (degree b).
Proof.
  intros b lo hi ((ND & L) & (C1 & C2 & C3 & C4) & E1 & E2).
  split; [lia|]. split; [lia|]. split; [exact C3|]. right. unfold kn.
  split; [rewrite <- E1; exact C1|]. split; [exact C1|reflexivity].
Qed.

Lemma deriv_at_start : forall s lo hi d, clamped_on (sbasis s) lo hi -> sized s -> (d <= degree (sbasis s))%nat ->
  call (derivative s d) lo = falling (degree (sbasis s)) d *
     dFn d (spiece s (degree (sbasis s))) (repeat lo (degree (sbasis s) - d)).
Proof.
  intros s lo hi d C SZ Hd. pose proof (proj1 C) as WF. pose proof C as ((ND & L) & CL & E1 & E2).
  set (x := nth (degree (sbasis s) + 1) (knots (sbasis s)) 0).
  assert (A : active (sbasis s) x (degree (sbasis s))).
  { apply active_inside; try lia. split; [apply CL|apply Rle_refl]. }
  rewrite <- (derivative_pieces s _ x WF SZ A (proj1 (proj2 (proj2 CL))) d lo Hd).
  destruct (deriv_inv d s Hd WF SZ) as (B1 & B2 & B3 & _).
  assert (C' := deriv_clamped d s Hd WF SZ CL).
  destruct (deriv_ends d s Hd WF SZ CL) as [EL _]. unfold lo_end in EL.
  assert (CC : clamped_on (sbasis (derivative s d)) lo
     (nth (length (knots (sbasis (derivative s d))) - 1) (knots (sbasis (derivative s d))) 0)).
  { split; [exact B1|]. split; [exact C'|]. split; [|reflexivity].
    rewrite <- E1. exact EL. }
  rewrite (call_piece _ _ _ (proj1 B1) B2 (first_active _ _ _ CC)). unfold spiece. rewrite B3. reflexivity.
Qed.

Theorem end_agree : forall s1 s2 lo1 lo2 hi e p, clamped_on (sbasis s1) lo1 hi -> clamped_on (sbasis s2) lo2 hi ->
  sized s1 -> sized s2 -> degree (sbasis s1) = p -> degree (sbasis s2) = p -> 0 < e ->
  (forall x, hi - e < x < hi -> call s1 x = call s2 x) ->
  forall d, (d <= p)%nat -> call (derivative s1 d) hi = call (derivative s2 d) hi.
Proof.
  intros s1 s2 lo1 lo2 hi e p C1 C2 Z1 Z2 D1 D2 He AG d Hd.
  rewrite (deriv_at_end s1 lo1 hi d C1 Z1) by lia. rewrite (deriv_at_end s2 lo2 hi d C2 Z2) by lia.
  rewrite D1, D2. f_equal.
  pose proof (last_below _ _ _ C1) as L1. pose proof (last_below _ _ _ C2) as L2.
  set (J1 := lastint (sbasis s1)) in *. set (J2 := lastint (sbasis s2)) in *.
  set (m := Rmax (hi - e) (Rmax (kn (sbasis s1) J1) (kn (sbasis s2) J2))).
  assert (M0 : hi - e <= m) by apply Rmax_l.
  assert (M1 : kn (sbasis s1) J1 <= m) by (eapply Rle_trans; [apply Rmax_l|apply Rmax_r]).
  assert (M2 : kn (sbasis s2) J2 <= m) by (eapply Rle_trans; [apply Rmax_r|apply Rmax_r]).
  assert (MH : m < hi) by (unfold m; repeat apply Rmax_lub_lt; lra).
  assert (A1 := last_active _ _ _ hi C1 (conj L1 (Rle_refl _))).
  assert (A2 := last_active _ _ _ hi C2 (conj L2 (Rle_refl _))).
  assert (S1 : symaff p (spiece s1 J1)).
  { unfold spiece. rewrite D1. apply piece_symaff; [rewrite <- D1; apply A1|].
    rewrite <- D1. eapply active_pos; [apply C1|exact A1]. }
  assert (S2 : symaff p (spiece s2 J2)).
  { unfold spiece. rewrite D2. apply piece_symaff; [rewrite <- D2; apply A2|].
    rewrite <- D2. eapply active_pos; [apply C2|exact A2]. }
  assert (EQ : forall us, length us = p -> spiece s1 J1 us = spiece s2 J2 us).
  { apply (form_unique p _ _ m hi S1 S2 MH). intros x Hx.
    assert (X1 := call_piece s1 x J1 (proj1 (proj1 C1)) Z1 (last_active _ _ _ x C1 ltac:(fold J1; lra))).
    assert (X2 := call_piece s2 x J2 (proj1 (proj1 C2)) Z2 (last_active _ _ _ x C2 ltac:(fold J2; lra))).
    rewrite D1 in X1. rewrite D2 in X2. unfold spiece. rewrite D1, D2. rewrite <- X1, <- X2. apply AG. lra. }
  assert (GEN : forall d q F G, (forall us, length us = (d + q)%nat -> F us = G us) ->
     forall us, length us = q -> dFn d F us = dFn d G us).
  { clear. induction d as [|d IH]; intros q F G H us L; [apply H; exact L|].
    simpl. apply (IH q); [|exact L]. intros vs Lv. unfold dF. rewrite !H by (simpl; lia). reflexivity. }
  apply (GEN d (p - d)%nat); [|apply repeat_length].
  intros us L. apply EQ. lia.
Qed.
