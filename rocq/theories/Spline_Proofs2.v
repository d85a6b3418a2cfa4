(** Smoothness: adjacent pieces, continuity, derivative, integral, scale. *)
From Coq Require Import Reals Lra Lia List Arith Bool Permutation.
From Verif Require Import Blossom Spline_Model Spline_Spec Spline_Proofs.
Import ListNotations.
Local Open Scope R_scope.

Ltac nlia := try unfold lt in *; lia.

(** ** one piece per active interval *)
Definition piece (d : nat) (k c : nat -> R) (J : nat) (us : list R) : R :=
  bl us (shn (J - d) k) (shn (J - d) c).

Lemma piece_symaff : forall d k c J, (d <= J)%nat -> actpos d k J -> symaff d (piece d k c J).
Proof.
  intros. apply bl_symaff. apply good_of_actpos. replace (J - d + d)%nat with J by lia. assumption.
Qed.

Lemma map_shn_seq : forall (k : nat -> R) a i n, map (shn a k) (seq i n) = map k (seq (a + i) n).
Proof.
  intros k a i n. revert i. induction n; intros i; simpl; [reflexivity|].
  rewrite shn_spec, IHn. replace (a + S i)%nat with (S (a + i)) by lia. reflexivity.
Qed.

Lemma piece_dual : forall d k c J a, (d <= J)%nat -> actpos d k J ->
  (J - d <= a <= J)%nat -> piece d k c J (map k (seq (S a) d)) = c a.
Proof.
  intros d k c J a HJ AP Ha. unfold piece.
  replace (S a) with ((J - d) + S (a - (J - d)))%nat by lia.
  rewrite <- map_shn_seq. rewrite bl_dual.
  - rewrite shn_spec. f_equal. lia.
  - apply good_of_actpos. replace (J - d + d)%nat with J by lia. assumption.
  - lia.
Qed.

(** the coefficients of a piece are the values of its blossom *)
Lemma piece_reconstruct : forall d k J F us, (d <= J)%nat -> actpos d k J -> symaff d F ->
  length us = d ->
  piece d k (fun a => F (map k (seq (S a) d))) J us = F us.
Proof.
  intros d k J F us HJ AP SA L. subst d. unfold piece.
  rewrite <- (bl_reconstruct us (shn (J - length us) k) F).
  - apply bl_ext_c. intros i Hi. rewrite shn_spec, map_shn_seq. f_equal. f_equal. f_equal. lia.
  - apply good_of_actpos. replace (J - length us + length us)%nat with J by lia. assumption.
  - exact SA.
Qed.

Lemma piece_ext : forall d k k' c c' J us, length us = d -> (d <= J)%nat ->
  (forall i, (J - d <= i <= J)%nat -> c i = c' i) ->
  (forall i, (J - d < i <= J + d)%nat -> k i = k' i) ->
  piece d k c J us = piece d k' c' J us.
Proof.
  intros d k k' c c' J us L HJ Hc Hk. unfold piece. apply bl_ext; intros i Hi; rewrite !shn_spec.
  - apply Hc. lia.
  - apply Hk. lia.
Qed.

Lemma symaff_app : forall ts d F, symaff (length ts + d) F -> symaff d (fun us => F (ts ++ us)).
Proof.
  induction ts as [|t ts IH]; intros d F SA.
  - destruct SA as [P A]. split; simpl; intros; auto.
  - simpl in SA. apply symaff_cons with (u := t) in SA. apply IH in SA.
    destruct SA as [P A]. split; simpl; intros; auto.
Qed.

Lemma map_const_repeat : forall (k : nat -> R) t n i,
  (forall j, (i <= j < i + n)%nat -> k j = t) -> map k (seq i n) = repeat t n.
Proof.
  induction n; intros i H; simpl; [reflexivity|]. rewrite H by lia. f_equal.
  apply IHn. intros; apply H; lia.
Qed.

Lemma adjacent_pieces : forall d k c J m t vs,
  (d <= J)%nat -> (m + length vs = d)%nat ->
  actpos d k J -> actpos d k (J + m) ->
  (forall j, (J < j <= J + m)%nat -> k j = t) ->
  piece d k c J (repeat t m ++ vs) = piece d k c (J + m) (repeat t m ++ vs).
Proof.
  intros d k c J m t vs HJ HL AP AP' Ht.
  set (e := length vs) in *.
  set (k' := fun i => if (i <=? J)%nat then k i else k (i + m)%nat).
  assert (AK : actpos e k' J).
  { intros i j Hi Hj Hij Hjj. unfold k'.
    replace (i <=? J)%nat with true by (symmetry; apply Nat.leb_le; lia).
    replace (j <=? J)%nat with false by (symmetry; apply Nat.leb_gt; lia).
    destruct (Nat.eq_dec m 0) as [->|Hm].
    - apply AP; lia.
    - apply Rlt_trans with (k (J + m)%nat).
      + apply AP; lia.
      + apply AP'; lia. }
  assert (PM : forall a, (J - e <= a <= J)%nat ->
     Permutation (repeat t m ++ map k' (seq (S a) e)) (map k (seq (S a) d))).
  { intros a Ha.
    set (p := (J - a)%nat). set (q := (e - p)%nat).
    assert (Hp : (p <= e)%nat) by (unfold p; lia).
    replace e with (p + q)%nat at 1 by (unfold q; lia).
    replace d with (p + (m + q))%nat at 1 by (unfold q; lia).
    rewrite !seq_app, !map_app.
    replace (S a + p)%nat with (S J) by (unfold p; lia).
    assert (E1 : map k' (seq (S a) p) = map k (seq (S a) p)).
    { apply map_ext_in. intros x Hx. apply in_seq in Hx. unfold k'.
      replace (x <=? J)%nat with true by (symmetry; apply Nat.leb_le; unfold p in *; lia). reflexivity. }
    assert (E2 : map k' (seq (S J) q) = map k (seq (S J + m) q)).
    { replace (map k (seq (S J + m) q)) with (map k (map (fun i => (i + m)%nat) (seq (S J) q))).
      - rewrite map_map. apply map_ext_in. intros x Hx. apply in_seq in Hx. unfold k'.
        replace (x <=? J)%nat with false by (symmetry; apply Nat.leb_gt; lia). reflexivity.
      - f_equal. clear. generalize (S J) as z. induction q; intros z; simpl; [reflexivity|].
        rewrite IHq. reflexivity. }
    assert (E3 : map k (seq (S J) m) = repeat t m).
    { apply map_const_repeat. intros; apply Ht; lia. }
    rewrite E1, E2, E3. rewrite !app_assoc. apply Permutation_app_tail. apply Permutation_app_comm. }
  assert (HG : forall L, (d <= L)%nat -> actpos d k L -> (J <= L)%nat -> (L <= J + m)%nat ->
     piece d k c L (repeat t m ++ vs)
     = piece e k' c J vs).
  { intros L HL1 APL HL2 HL3.
    set (F := fun us => piece d k c L (repeat t m ++ us)).
    change (F vs = piece e k' c J vs).
    assert (SF : symaff e F).
    { apply (symaff_app (repeat t m)). rewrite repeat_length.
      replace (m + e)%nat with d by lia. apply piece_symaff; auto. }
    rewrite <- (piece_reconstruct e k' J F vs) by (auto; lia).
    apply piece_ext; auto; [lia|]. intros a Ha. unfold F.
    rewrite (sa_perm _ _ (piece_symaff d k c L HL1 APL) _ (map k (seq (S a) d))).
    - apply piece_dual; auto. lia.
    - rewrite app_length, repeat_length, map_length, seq_length. lia.
    - apply PM. lia. }
  rewrite (HG J), (HG (J + m)%nat); auto; lia.
Qed.

(** ** glueing two functions at a point *)
Lemma glue_continuity : forall f g h t e, 0 < e -> g t = h t ->
  (forall x, t - e < x <= t -> f x = g x) ->
  (forall x, t < x < t + e -> f x = h x) ->
  continuity_pt g t -> continuity_pt h t -> continuity_pt f t.
Proof.
  intros f g h t e He Hgh Hg Hh Cg Ch eps Heps.
  destruct (Cg eps Heps) as (a1 & Ha1 & H1). destruct (Ch eps Heps) as (a2 & Ha2 & H2).
  exists (Rmin e (Rmin a1 a2)). split.
  - apply Rmin_Rgt_r. split; [lra|]. apply Rmin_Rgt_r. split; lra.
  - intros x [HD Hx]. simpl in *. unfold R_dist in *.
    assert (B1 : Rabs (x - t) < e) by (eapply Rlt_le_trans; [exact Hx|apply Rmin_l]).
    assert (B2 : Rabs (x - t) < a1).
    { eapply Rlt_le_trans; [exact Hx|]. eapply Rle_trans; [apply Rmin_r|apply Rmin_l]. }
    assert (B3 : Rabs (x - t) < a2).
    { eapply Rlt_le_trans; [exact Hx|]. eapply Rle_trans; [apply Rmin_r|apply Rmin_r]. }
    assert (Ft : f t = g t) by (apply Hg; lra).
    apply Rabs_def2 in B1.
    destruct (Rle_dec x t) as [L|L].
    + rewrite Ft, (Hg x) by lra. apply H1. split; auto.
    + rewrite Ft, Hgh, (Hh x) by lra. apply H2. split; auto.
Qed.

Lemma glue_derivable : forall f g h t e l, 0 < e -> g t = h t ->
  (forall x, t - e < x <= t -> f x = g x) ->
  (forall x, t < x < t + e -> f x = h x) ->
  derivable_pt_lim g t l -> derivable_pt_lim h t l -> derivable_pt_lim f t l.
Proof.
  intros f g h t e l He Hgh Hg Hh Dg Dh eps Heps.
  destruct (Dg eps Heps) as [a1 H1]. destruct (Dh eps Heps) as [a2 H2].
  assert (P : 0 < Rmin e (Rmin a1 a2)).
  { apply Rmin_Rgt_r. split; [lra|]. apply Rmin_Rgt_r. split; [apply a1|apply a2]. }
  exists (mkposreal _ P). intros z Hz Hb. simpl in Hb.
  assert (B1 : Rabs z < e) by (eapply Rlt_le_trans; [exact Hb|apply Rmin_l]).
  assert (B2 : Rabs z < a1).
  { eapply Rlt_le_trans; [exact Hb|]. eapply Rle_trans; [apply Rmin_r|apply Rmin_l]. }
  assert (B3 : Rabs z < a2).
  { eapply Rlt_le_trans; [exact Hb|]. eapply Rle_trans; [apply Rmin_r|apply Rmin_r]. }
  assert (Ft : f t = g t) by (apply Hg; lra).
  apply Rabs_def2 in B1.
  destruct (Rle_dec z 0) as [L|L].
  - rewrite Ft, (Hg (t + z)) by lra. apply H1; auto.
  - rewrite Ft, Hgh, (Hh (t + z)) by lra. apply H2; auto.
Qed.

Lemma diag_continuous : forall d k c x, good d k -> continuity_pt (diag d k c) x.
Proof.
  intros [|d] k c x G.
  - unfold diag. simpl. apply continuity_pt_const. intros u v. reflexivity.
  - apply derivable_continuous_pt. exists (INR (S d) * diag d (sh k) (bdiff d k c) x).
    apply diag_derivable. exact G.
Qed.

(** ** neighbourhoods *)
(** active interval at a point, and the one just right of it *)
Lemma next_interval : forall b J t, nondecreasing (knots b) ->
  (degree b <= J)%nat -> kn b (J + 1) = t -> t < dom_right b ->
  (J + degree b + 1 < length (knots b))%nat ->
  exists m, (J + m + degree b + 1 < length (knots b))%nat /\
    (1 <= m)%nat /\
    (forall j, (J < j <= J + m)%nat -> kn b j = t) /\ t < kn b (J + m + 1).
Proof.
  intros b J t Hs HD Ht Hr HJ.
  assert (mono : forall p q, (p <= q)%nat -> (q < length (knots b))%nat -> kn b p <= kn b q)
    by (intros; apply Hs; auto).
  assert (G : forall n m, (1 <= m)%nat -> (J + m + 1 + n = length (knots b) - degree b - 1)%nat ->
     (forall j, (J < j <= J + m)%nat -> kn b j = t) ->
     exists m, (J + m + degree b + 1 < length (knots b))%nat /\ (1 <= m)%nat /\
    (forall j, (J < j <= J + m)%nat -> kn b j = t) /\ t < kn b (J + m + 1)).
  { induction n as [|n IH]; intros m Hm Hn Hk.
    - exists m. repeat split; auto; [lia|].
      unfold dom_right in Hr. rewrite <- Hn in Hr.
      replace (J + m + 1 + 0)%nat with (J + m + 1)%nat in Hr by lia. exact Hr.
    - destruct (Rlt_dec t (kn b (J + m + 1))) as [L|L].
      + exists m. repeat split; auto; lia.
      + apply (IH (S m)); [lia|lia|]. intros j Hj.
        destruct (Nat.eq_dec j (J + S m)) as [->|]; [|apply Hk; lia].
        replace (J + S m)%nat with (J + m + 1)%nat in * by lia.
        pose proof (mono (J + 1)%nat (J + m + 1)%nat ltac:(lia) ltac:(lia)). lra. }
  destruct (Nat.eq_dec (J + 1) (length (knots b) - degree b - 1)) as [E|E].
  - unfold dom_right in Hr. rewrite <- E in Hr. unfold kn in Ht. lra.
  - apply (G (length (knots b) - degree b - 1 - (J + 2))%nat 1%nat); [lia|lia|].
    intros j Hj. replace j with (J + 1)%nat by lia. exact Ht.
Qed.

Lemma call_piece : forall s x J, nondecreasing (knots (sbasis s)) -> sized s ->
  active (sbasis s) x J ->
  call s x = piece (degree (sbasis s)) (kn (sbasis s)) (cf s) J (repeat x (degree (sbasis s))).
Proof. intros. rewrite (call_diag s x J) by auto. reflexivity. Qed.

Lemma active_inside : forall b J x, (degree b <= J)%nat -> (J + degree b + 1 < length (knots b))%nat ->
  kn b J < x <= kn b (J + 1) -> active b x J.
Proof. intros b J x H1 H2 H3. split; [|split; [|split]]; auto; lra. Qed.

(** continuity of a spline on the open domain *)
Theorem call_continuous : forall s x, well_formed (sbasis s) -> sized s ->
  dom_left (sbasis s) < x < dom_right (sbasis s) ->
  mult_le (sbasis s) x (degree (sbasis s)) ->
  continuity_pt (call s) x.
Proof.
  intros s x WF Hsz Hx Hm. set (b := sbasis s) in *. set (D := degree b) in *.
  destruct (active_exists b x WF) as [J HA]; [left; lra|].
  destruct WF as [Hs Hl].
  pose proof (active_pos b x J Hs HA) as AP. fold D in AP.
  pose proof HA as (H1 & H2 & H3 & H4). fold D in H1, H2.
  assert (X : kn b J < x <= kn b (J + 1)).
  { destruct H4 as [?|[E1 [E2 E3]]]; [lra|]. exfalso. subst J.
    unfold dom_left, kn in *. fold D in E1. fold D in Hx. lra. }
  set (g := diag D (shn (J - D) (kn b)) (shn (J - D) (cf s))).
  assert (Cg : continuity_pt g x).
  { apply diag_continuous. apply good_of_actpos. replace (J - D + D)%nat with J by lia. exact AP. }
  destruct (Rlt_dec x (kn b (J + 1))) as [L|L].
  - set (e := Rmin (x - kn b J) (kn b (J + 1) - x)).
    assert (E1 : e <= x - kn b J) by apply Rmin_l.
    assert (E2 : e <= kn b (J + 1) - x) by apply Rmin_r.
    assert (E0 : 0 < e) by (apply Rmin_Rgt_r; lra).
    apply (glue_continuity _ g g x e); auto.
    + intros z Hz. apply (call_diag s z J); auto. apply active_inside; auto. fold b. lra.
    + intros z Hz. apply (call_diag s z J); auto. apply active_inside; auto. fold b. lra.
  - assert (Et : kn b (J + 1) = x) by lra.
    destruct (next_interval b J x Hs H1 Et ltac:(lra) H2) as (m & Hm1 & Hm2 & Hm3 & Hm4).
    fold D in Hm1.
    assert (MD : (m <= D)%nat).
    { destruct (le_lt_dec m D) as [|Hc]; [assumption|]. exfalso.
      apply (Hm (J + 1)%nat).
      - fold b D. lia.
      - split; [exact Et|]. apply (Hm3 (J + 1 + D)%nat). lia. }
    assert (HB : active b (kn b (J + m + 1)) (J + m)).
    { apply active_inside; fold D; try lia.
      rewrite (Hm3 (J + m)%nat) by lia. lra. }
    pose proof (active_pos b _ _ Hs HB) as AP'. fold D in AP'.
    set (h := diag D (shn (J + m - D) (kn b)) (shn (J + m - D) (cf s))).
    assert (Ch : continuity_pt h x).
    { apply diag_continuous. apply good_of_actpos.
      replace (J + m - D + D)%nat with (J + m)%nat by lia. exact AP'. }
    assert (GH : g x = h x).
    { unfold g, h, diag.
      assert (RX : repeat x D = repeat x m ++ repeat x (D - m))
        by (rewrite <- repeat_app; f_equal; lia).
      rewrite RX.
      apply (adjacent_pieces D (kn b) (cf s) J m x (repeat x (D - m))); auto.
      rewrite repeat_length. lia. }
    set (e := Rmin (x - kn b J) (kn b (J + m + 1) - x)).
    assert (E1 : e <= x - kn b J) by apply Rmin_l.
    assert (E2 : e <= kn b (J + m + 1) - x) by apply Rmin_r.
    assert (E0 : 0 < e) by (apply Rmin_Rgt_r; lra).
    apply (glue_continuity _ g h x e); auto.
    + intros z Hz. apply (call_diag s z J); auto. apply active_inside; auto. fold b. lra.
    + intros z Hz. apply (call_diag s z (J + m)); auto. fold b. apply active_inside; fold D; try lia.
      rewrite (Hm3 (J + m)%nat) by lia. lra.
Qed.

(** ** derivative *)
Lemma nth_removelast : forall (l : list R) i, (i + 1 < length l)%nat ->
  nth i (removelast l) 0 = nth i l 0.
Proof.
  induction l as [|a l IH]; intros i H; [simpl in H; lia|].
  destruct l as [|c l]; [simpl in H; lia|]. destruct i as [|i]; [reflexivity|].
  change (removelast (a :: c :: l)) with (a :: removelast (c :: l)). simpl nth.
  apply IH. simpl in *. lia.
Qed.
Lemma length_removelast : forall (l : list R), length (removelast l) = (length l - 1)%nat.
Proof.
  induction l as [|a l IH]; [reflexivity|]. destruct l as [|c l]; [reflexivity|].
  change (removelast (a :: c :: l)) with (a :: removelast (c :: l)). simpl length in *. lia.
Qed.
Lemma length_trim : forall l, length (trim l) = (length l - 2)%nat.
Proof.
  intros l. unfold trim. rewrite length_removelast. destruct l; simpl; lia.
Qed.
Lemma nth_trim : forall l i, (i + 2 < length l)%nat -> nth i (trim l) 0 = nth (S i) l 0.
Proof.
  intros l i H. unfold trim. destruct l as [|a l]; [simpl in H; lia|]. simpl tl.
  rewrite nth_removelast by (simpl in H; lia). reflexivity.
Qed.
Lemma length_slice : forall o l, length (slice_oo o l) = (length l - 2 * o)%nat.
Proof. intros. unfold slice_oo. rewrite firstn_length, skipn_length. lia. Qed.

Lemma nth_firstn : forall n (l : list R) i, (i < n)%nat -> nth i (firstn n l) 0 = nth i l 0.
Proof.
  induction n; intros l i H; [lia|]. destruct l as [|a l]; [destruct i; reflexivity|].
  destruct i; simpl; [reflexivity|]. apply IHn. lia.
Qed.
Lemma nth_skipn : forall n (l : list R) i, nth i (skipn n l) 0 = nth (n + i) l 0.
Proof.
  induction n; intros l i; [reflexivity|]. destruct l as [|a l]; [destruct i; reflexivity|].
  simpl. apply IHn.
Qed.
Lemma nth_slice : forall o l i, (i + 2 * o < length l)%nat -> nth i (slice_oo o l) 0 = nth (o + i) l 0.
Proof.
  intros. unfold slice_oo. rewrite nth_firstn by lia. apply nth_skipn.
Qed.
Lemma list_nth_ext : forall (l l' : list R), length l = length l' ->
  (forall i, (i < length l)%nat -> nth i l 0 = nth i l' 0) -> l = l'.
Proof. intros l l' H1 H2. apply (nth_ext l l' 0 0); auto. Qed.

Lemma trim_slice : forall o l, slice_oo (S o) l = trim (slice_oo o l).
Proof.
  intros o l. apply list_nth_ext.
  - rewrite length_trim, !length_slice. lia.
  - intros i Hi. rewrite length_slice in Hi.
    rewrite nth_trim by (rewrite length_slice; lia).
    rewrite !nth_slice by lia. f_equal. lia.
Qed.
Lemma slice_0 : forall l, slice_oo 0 l = l.
Proof. intros. unfold slice_oo. simpl. rewrite Nat.sub_0_r. apply firstn_all. Qed.

Lemma deriv_loop_snoc : forall o i deg ks c,
  deriv_loop (S o) i deg ks c
  = deriv_step (deg - (i + o)) (Nat.iter (S o) trim ks) (deriv_loop o i deg ks c).
Proof.
  induction o; intros i deg ks c.
  - simpl. rewrite Nat.add_0_r. reflexivity.
  - change (deriv_loop (S (S o)) i deg ks c)
      with (deriv_loop (S o) (S i) deg (trim ks) (deriv_step (deg - i) (trim ks) c)).
    rewrite IHo.
    change (deriv_loop (S o) i deg ks c)
      with (deriv_loop o (S i) deg (trim ks) (deriv_step (deg - i) (trim ks) c)).
    replace (i + S o)%nat with (S i + o)%nat by lia.
    assert (E : Nat.iter (S o) trim (trim ks) = Nat.iter (S (S o)) trim ks).
    { clear. generalize (S o) as n. intros n. induction n; simpl; [reflexivity|]. rewrite IHn. reflexivity. }
    rewrite E. reflexivity.
Qed.
Lemma iter_trim_slice : forall o l, Nat.iter o trim l = slice_oo o l.
Proof.
  induction o; intros l; [simpl; symmetry; apply slice_0|].
  rewrite trim_slice. simpl. rewrite IHo. reflexivity.
Qed.

(** derivative(o+1) is the derivative of derivative(o) *)
Theorem derivative_iter : forall s o, derivative s (S o) = derivative (derivative s o) 1.
Proof.
  intros s o. destruct o; [reflexivity|].
  unfold derivative at 1 2 3. unfold sbasis at 4 5 6, coeffs at 2. simpl degree. cbn [knots].
  f_equal.
  - f_equal.
    + rewrite trim_slice. rewrite (trim_slice 0), slice_0. reflexivity.
    + lia.
  - rewrite deriv_loop_snoc. rewrite iter_trim_slice. cbn [deriv_loop].
    rewrite trim_slice. f_equal. lia.
Qed.

Lemma deriv1_knots : forall s, knots (sbasis (derivative s 1)) = trim (knots (sbasis s)).
Proof. intros. simpl. rewrite (trim_slice 0), slice_0. reflexivity. Qed.
Lemma deriv1_degree : forall s, degree (sbasis (derivative s 1)) = (degree (sbasis s) - 1)%nat.
Proof. reflexivity. Qed.
Lemma deriv1_len : forall s, length (coeffs (derivative s 1)) = (length (coeffs s) - 1)%nat.
Proof. intros. simpl. unfold deriv_step. rewrite map_length, seq_length. reflexivity. Qed.

Lemma deriv1_sized : forall s, (1 <= degree (sbasis s))%nat -> sized s -> sized (derivative s 1).
Proof.
  intros s H1 Hsz. unfold sized in *. rewrite deriv1_len, deriv1_knots, deriv1_degree, length_trim. lia.
Qed.
Lemma trim_nondecreasing : forall l, nondecreasing l -> nondecreasing (trim l).
Proof.
  intros l H i j Hij Hj. rewrite length_trim in Hj. rewrite !nth_trim by lia. apply H; lia.
Qed.
Lemma deriv1_wf : forall s, (1 <= degree (sbasis s))%nat -> well_formed (sbasis s) ->
  well_formed (sbasis (derivative s 1)).
Proof.
  intros s H1 [Hs Hl]. split.
  - rewrite deriv1_knots. apply trim_nondecreasing; auto.
  - rewrite deriv1_knots, deriv1_degree, length_trim. lia.
Qed.

Lemma deriv1_kn : forall s i, (i + 2 < length (knots (sbasis s)))%nat ->
  kn (sbasis (derivative s 1)) i = kn (sbasis s) (S i).
Proof. intros. unfold kn. rewrite deriv1_knots. apply nth_trim. auto. Qed.

Lemma deriv1_cf : forall s i, sized s -> (i + degree (sbasis s) + 2 < length (knots (sbasis s)))%nat ->
  kn (sbasis s) (S i) < kn (sbasis s) (S i + degree (sbasis s)) ->
  cf (derivative s 1) i = INR (degree (sbasis s)) * ((cf s (i + 1) - cf s i)
      / (kn (sbasis s) (S i + degree (sbasis s)) - kn (sbasis s) (S i))).
Proof.
  intros s i Hsz Hi Hlt. unfold cf. simpl. unfold deriv_step.
  unfold sized in Hsz. rewrite nth_map_seq by lia.
  rewrite Nat.sub_0_r. rewrite !nth_trim by lia.
  replace (S (i + degree (sbasis s))) with (S i + degree (sbasis s))%nat by lia.
  unfold kn in *. field. lra.
Qed.

(** the derivative spline's piece *)
Lemma deriv1_piece : forall s x J, nondecreasing (knots (sbasis s)) -> sized s ->
  (1 <= degree (sbasis s))%nat -> active (sbasis s) x J -> forall z,
  INR (degree (sbasis s)) *
  diag (degree (sbasis s) - 1) (sh (shn (J - degree (sbasis s)) (kn (sbasis s))))
     (bdiff (degree (sbasis s) - 1) (shn (J - degree (sbasis s)) (kn (sbasis s)))
        (shn (J - degree (sbasis s)) (cf s))) z
  = diag (degree (sbasis s) - 1)
     (shn ((J - 1) - (degree (sbasis s) - 1)) (kn (sbasis (derivative s 1))))
     (shn ((J - 1) - (degree (sbasis s) - 1)) (cf (derivative s 1))) z.
Proof.
  intros s x J Hs Hsz HD HA z.
  pose proof (active_pos _ _ _ Hs HA) as AP.
  destruct HA as (H1 & H2 & H3 & H4).
  set (b := sbasis s) in *. set (D := degree b) in *.
  unfold diag. rewrite <- bl_scal.
  apply bl_ext; rewrite repeat_length; intros i Hi; rewrite ?shn_spec.
  - rewrite deriv1_cf; fold b; fold D; auto.
    + unfold bdiff. rewrite !shn_spec.
      replace (J - D + (i + 1))%nat with (J - 1 - (D - 1) + i + 1)%nat by lia.
      replace (J - D + i)%nat with (J - 1 - (D - 1) + i)%nat by lia.
      replace (J - D + (i + (D - 1) + 2))%nat with (S (J - 1 - (D - 1) + i) + D)%nat by lia.
      replace (J - 1 - (D - 1) + i + 1)%nat with (S (J - 1 - (D - 1) + i)) by lia.
      reflexivity.
    + lia.
    + apply AP; lia.
  - unfold sh. rewrite shn_spec. rewrite deriv1_kn by (fold b; lia). fold b.
    f_equal. lia.
Qed.

Lemma deriv1_active : forall s x J, (1 <= degree (sbasis s))%nat -> active (sbasis s) x J ->
  kn (sbasis s) J < x -> active (sbasis (derivative s 1)) x (J - 1).
Proof.
  intros s x J HD (H1 & H2 & H3 & H4) Hx.
  apply active_inside.
  - rewrite deriv1_degree. lia.
  - rewrite deriv1_degree, deriv1_knots, length_trim. lia.
  - rewrite !deriv1_kn by lia.
    replace (S (J - 1)) with J by lia. replace (S (J - 1 + 1)) with (J + 1)%nat by lia.
    destruct H4 as [?|?]; lra.
Qed.

Theorem derivative1_correct : forall s x, well_formed (sbasis s) -> sized s ->
  (1 <= degree (sbasis s))%nat ->
  dom_left (sbasis s) < x < dom_right (sbasis s) ->
  mult_le (sbasis s) x (degree (sbasis s) - 1) ->
  derivable_pt_lim (call s) x (call (derivative s 1) x).
Proof.
  intros s x WF Hsz HD Hx Hm.
  assert (WF' := deriv1_wf s HD WF). assert (SZ' := deriv1_sized s HD Hsz).
  set (b := sbasis s) in *. set (D := degree b) in *.
  destruct (active_exists b x WF) as [J HA]; [left; lra|].
  destruct WF as [Hs Hl]. destruct WF' as [Hs' _].
  pose proof (active_pos b x J Hs HA) as AP. fold D in AP.
  pose proof HA as (H1 & H2 & H3 & H4). fold D in H1, H2.
  assert (X : kn b J < x <= kn b (J + 1)).
  { destruct H4 as [?|[E1 [E2 E3]]]; [lra|]. exfalso. subst J.
    unfold dom_left, kn in *. fold D in E1. fold D in Hx. lra. }
  assert (HA' : active (sbasis (derivative s 1)) x (J - 1)) by (apply deriv1_active; auto; apply X).
  rewrite (call_diag (derivative s 1) x (J - 1)) by auto.
  rewrite deriv1_degree. fold b D.
  unfold b, D. rewrite <- (deriv1_piece s x J) by auto. fold b D.
  set (g := diag D (shn (J - D) (kn b)) (shn (J - D) (cf s))).
  assert (DG : forall L, (D <= L)%nat -> actpos D (kn b) L -> forall z,
     derivable_pt_lim (diag D (shn (L - D) (kn b)) (shn (L - D) (cf s))) z
       (INR D * diag (D - 1) (sh (shn (L - D) (kn b)))
          (bdiff (D - 1) (shn (L - D) (kn b)) (shn (L - D) (cf s))) z)).
  { intros L HL APL z. replace D with (S (D - 1)) at 1 4 by lia.
    apply diag_derivable. replace (S (D - 1)) with D by lia.
    apply good_of_actpos. replace (L - D + D)%nat with L by lia. exact APL. }
  destruct (Rlt_dec x (kn b (J + 1))) as [L|L].
  - set (e := Rmin (x - kn b J) (kn b (J + 1) - x)).
    assert (E1 : e <= x - kn b J) by apply Rmin_l.
    assert (E2 : e <= kn b (J + 1) - x) by apply Rmin_r.
    assert (E0 : 0 < e) by (apply Rmin_Rgt_r; lra).
    apply (glue_derivable _ g g x e); auto.
    + intros z Hz. apply (call_diag s z J); auto. apply active_inside; auto. fold b. lra.
    + intros z Hz. apply (call_diag s z J); auto. apply active_inside; auto. fold b. lra.
    + apply DG; auto.
    + apply DG; auto.
  - assert (Et : kn b (J + 1) = x) by lra.
    destruct (next_interval b J x Hs H1 Et ltac:(lra) H2) as (m & Hm1 & Hm2 & Hm3 & Hm4).
    fold D in Hm1.
    assert (MD : (m <= D - 1)%nat).
    { destruct (le_lt_dec m (D - 1)) as [|Hc]; [assumption|]. exfalso.
      apply (Hm (J + 1)%nat).
      - fold b D. lia.
      - split; [exact Et|]. apply (Hm3 (J + 1 + (D - 1))%nat). lia. }
    assert (HB : active b (kn b (J + m + 1)) (J + m)).
    { apply active_inside; fold D; try lia.
      rewrite (Hm3 (J + m)%nat) by lia. lra. }
    pose proof (active_pos b _ _ Hs HB) as AP'. fold D in AP'.
    set (h := diag D (shn (J + m - D) (kn b)) (shn (J + m - D) (cf s))).
    assert (GH : g x = h x).
    { unfold g, h, diag.
      assert (RX : repeat x D = repeat x m ++ repeat x (D - m))
        by (rewrite <- repeat_app; f_equal; lia).
      rewrite RX.
      apply (adjacent_pieces D (kn b) (cf s) J m x (repeat x (D - m))); auto.
      rewrite repeat_length. lia. }
    set (e := Rmin (x - kn b J) (kn b (J + m + 1) - x)).
    assert (E1 : e <= x - kn b J) by apply Rmin_l.
    assert (E2 : e <= kn b (J + m + 1) - x) by apply Rmin_r.
    assert (E0 : 0 < e) by (apply Rmin_Rgt_r; lra).
    apply (glue_derivable _ g h x e); auto.
    + intros z Hz. apply (call_diag s z J); auto. apply active_inside; auto. fold b. lra.
    + intros z Hz. apply (call_diag s z (J + m)); auto. fold b. apply active_inside; fold D; try lia.
      rewrite (Hm3 (J + m)%nat) by lia. lra.
    + apply DG; auto.
    + unfold h.
      assert (Q : derivable_pt_lim (diag D (shn (J + m - D) (kn b)) (shn (J + m - D) (cf s))) x
       (INR D * diag (D - 1) (sh (shn (J + m - D) (kn b)))
          (bdiff (D - 1) (shn (J + m - D) (kn b)) (shn (J + m - D) (cf s))) x))
        by (apply DG; auto; lia).
      unfold b, D in Q. rewrite (deriv1_piece s (kn b (J + m + 1)) (J + m)) in Q by auto.
      unfold b, D. rewrite (deriv1_piece s x J) by auto. fold b D in Q |- *.
      (* both pieces of the derivative spline agree at the knot *)
      set (k' := kn (sbasis (derivative s 1))) in *.
      set (c' := cf (derivative s 1)) in *.
      assert (EQ : diag (D - 1) (shn (J - 1 - (D - 1)) k') (shn (J - 1 - (D - 1)) c') x
          = diag (D - 1) (shn (J + m - 1 - (D - 1)) k') (shn (J + m - 1 - (D - 1)) c') x).
      { pose proof (active_pos _ _ _ Hs' HA') as APa.
        assert (HB' : active (sbasis (derivative s 1)) (kn b (J + m + 1)) (J + m - 1)).
        { apply deriv1_active; auto. fold b. rewrite (Hm3 (J + m)%nat) by lia. lra. }
        pose proof (active_pos _ _ _ Hs' HB') as APb.
        rewrite deriv1_degree in APa, APb. fold b D k' in APa, APb.
        unfold diag.
        assert (RX : repeat x (D - 1) = repeat x m ++ repeat x (D - 1 - m))
          by (rewrite <- repeat_app; f_equal; lia).
        rewrite RX.
        replace (J + m - 1)%nat with (J - 1 + m)%nat in * by lia.
        apply (adjacent_pieces (D - 1) k' c' (J - 1) m x (repeat x (D - 1 - m))); auto.
        - lia.
        - rewrite repeat_length. lia.
        - intros j Hj. unfold k'. rewrite deriv1_kn by (fold b; lia). apply Hm3. lia. }
      rewrite EQ. exact Q.
Qed.
