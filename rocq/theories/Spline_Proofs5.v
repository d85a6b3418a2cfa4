(** Cropping, Greville points. *)
From Coq Require Import Reals Lra Lia List Arith Bool Permutation.
From Verif Require Import Blossom Spline_Model Spline_Spec Spline_Proofs Spline_Proofs2
  Spline_Proofs3 Spline_Proofs4.
Import ListNotations.
Local Open Scope R_scope.

(** counting in sorted lists *)
Lemma filter_prefix : forall (P : R -> bool) l, nondecreasing l ->
  (forall x y, x <= y -> P y = true -> P x = true) ->
  forall i, (i < length l)%nat -> P (nth i l 0) = (i <? length (filter P l))%nat.
Proof.
  intros P l. induction l as [|a l IH]; intros H HP i Hi; [simpl in Hi; lia|].
  apply nondecreasing_cons in H. destruct H as [H1 H2].
  simpl filter. destruct (P a) eqn:E.
  - destruct i as [|i]; [simpl; rewrite E; reflexivity|].
    simpl nth. simpl length. rewrite IH by (auto; simpl in Hi; lia). reflexivity.
  - assert (F : filter P l = []).
    { destruct (filter P l) as [|y q] eqn:Q; [reflexivity|]. exfalso.
      assert (In y (filter P l)) by (rewrite Q; left; reflexivity).
      apply filter_In in H. destruct H as [Hy1 Hy2].
      rewrite (HP a y) in E; [discriminate|auto|auto]. }
    rewrite F. simpl. destruct i as [|i]; [simpl; rewrite E; reflexivity|].
    simpl nth. destruct (P (nth i l 0)) eqn:E2; [|reflexivity]. exfalso.
    rewrite (HP a (nth i l 0)) in E; [discriminate| |auto].
    apply H1. apply nth_In. simpl in Hi. lia.
Qed.

Lemma count_perm : forall (P : R -> bool) l l', Permutation l l' ->
  length (filter P l) = length (filter P l').
Proof.
  induction 1; simpl; auto.
  - destruct (P x); simpl; auto.
  - destruct (P x), (P y); simpl; auto.
  - congruence.
Qed.

Lemma filter_repeat : forall (P : R -> bool) v n,
  length (filter P (repeat v n)) = if P v then n else 0%nat.
Proof.
  induction n; simpl; [destruct (P v); reflexivity|].
  destruct (P v) eqn:E; simpl; lia.
Qed.

Lemma count_le_lt_eq : forall l v,
  length (filter (fun a => Rleb a v) l)
  = (length (filter (fun a => Rltb a v) l) + count_eq l v)%nat.
Proof.
  intros l v. unfold count_eq. induction l as [|a l IH]; [reflexivity|]. simpl.
  destruct (Rlt_dec a v) as [L|L].
  - replace (Rltb a v) with true by (symmetry; apply Rltb_true; lra).
    replace (Rleb a v) with true by (symmetry; apply Rleb_true; lra).
    replace (Reqb a v) with false by (symmetry; apply Reqb_false; lra). simpl. lia.
  - replace (Rltb a v) with false by (symmetry; apply Rltb_false; lra).
    destruct (Req_EM_T a v) as [E|E].
    + replace (Rleb a v) with true by (symmetry; apply Rleb_true; lra).
      replace (Reqb a v) with true by (symmetry; apply Reqb_true; lra). simpl. lia.
    + replace (Rleb a v) with false by (symmetry; apply Rleb_false; lra).
      replace (Reqb a v) with false by (symmetry; apply Reqb_false; lra). simpl. lia.
Qed.

Lemma sorted_lt_index : forall l v i, nondecreasing l -> (i < length l)%nat ->
  (nth i l 0 < v <-> (i < searchsorted_left l v)%nat).
Proof.
  intros l v i H Hi. unfold searchsorted_left.
  pose proof (filter_prefix (fun a => Rltb a v) l H) as F.
  rewrite <- Nat.ltb_lt. rewrite <- F; auto.
  - rewrite Rltb_true. tauto.
  - intros x y Hxy. rewrite !Rltb_true. lra.
Qed.
Lemma sorted_le_index : forall l v i, nondecreasing l -> (i < length l)%nat ->
  (nth i l 0 <= v <-> (i < searchsorted_right l v)%nat).
Proof.
  intros l v i H Hi. unfold searchsorted_right.
  pose proof (filter_prefix (fun a => Rleb a v) l H) as F.
  rewrite <- Nat.ltb_lt. rewrite <- F; auto.
  - rewrite Rleb_true. tauto.
  - intros x y Hxy. rewrite !Rleb_true. lra.
Qed.
Lemma filter_length_le : forall (P : R -> bool) l, (length (filter P l) <= length l)%nat.
Proof. induction l; simpl; [lia|]. destruct (P a); simpl; lia. Qed.

(** slice of a spline between two indices of full multiplicity *)
Definition cut (s : bspline) (jmin jmax : nat) : bspline :=
  mkS (mkB (firstn (jmax - jmin) (skipn jmin (knots (sbasis s)))) (degree (sbasis s)))
      (firstn (jmax - degree (sbasis s) - 1 - jmin) (skipn jmin (coeffs s))).

Lemma cut_kn : forall s jmin jmax i, (jmin + i < jmax)%nat ->
  kn (sbasis (cut s jmin jmax)) i = kn (sbasis s) (jmin + i).
Proof. intros. unfold kn. simpl. rewrite nth_firstn by lia. apply nth_skipn. Qed.
Lemma cut_cf : forall s jmin jmax i, (jmin + i < jmax - degree (sbasis s) - 1)%nat ->
  cf (cut s jmin jmax) i = cf s (jmin + i).
Proof. intros. unfold cf. simpl. rewrite nth_firstn by lia. apply nth_skipn. Qed.
Lemma cut_len : forall s jmin jmax, (jmax <= length (knots (sbasis s)))%nat ->
  length (knots (sbasis (cut s jmin jmax))) = (jmax - jmin)%nat.
Proof. intros. simpl. rewrite firstn_length, skipn_length. lia. Qed.
Lemma cut_sorted : forall s jmin jmax, nondecreasing (knots (sbasis s)) ->
  (jmax <= length (knots (sbasis s)))%nat -> nondecreasing (knots (sbasis (cut s jmin jmax))).
Proof.
  intros s jmin jmax Hs Hl i j Hij Hj. rewrite cut_len in Hj by auto.
  fold (kn (sbasis (cut s jmin jmax)) i). fold (kn (sbasis (cut s jmin jmax)) j).
  rewrite !cut_kn by lia. apply Hs; lia.
Qed.
Lemma cut_sized : forall s jmin jmax, sized s -> (jmax <= length (knots (sbasis s)))%nat ->
  sized (cut s jmin jmax).
Proof.
  intros s jmin jmax SZ Hl. unfold sized in *. rewrite cut_len by auto. simpl.
  rewrite firstn_length, skipn_length. lia.
Qed.

Lemma cut_call : forall s jmin jmax x J, nondecreasing (knots (sbasis s)) -> sized s ->
  (jmax <= length (knots (sbasis s)))%nat ->
  active (sbasis s) x J -> (jmin + degree (sbasis s) <= J)%nat ->
  (J + degree (sbasis s) + 1 < jmax)%nat ->
  (kn (sbasis s) J < x \/ jmin = 0%nat) ->
  call (cut s jmin jmax) x = call s x.
Proof.
  intros s jmin jmax x J Hs SZ Hl HA Hj1 Hj2 Hx.
  set (b := sbasis s) in *. set (D := degree b) in *.
  pose proof HA as (H1 & H2 & H3 & H4). fold D in H1, H2.
  assert (HA' : active (sbasis (cut s jmin jmax)) x (J - jmin)).
  { split; [simpl degree; fold b D; lia|]. split.
    - rewrite cut_len by (fold b; auto). simpl degree. fold b D. lia.
    - rewrite !cut_kn by lia. fold b.
      replace (jmin + (J - jmin))%nat with J by lia.
      replace (jmin + (J - jmin + 1))%nat with (J + 1)%nat by lia.
      split; [exact H3|]. destruct H4 as [?|[E1 [E2 E3]]]; [left; auto|].
      destruct Hx as [?|Hx]; [lra|]. subst jmin. right. simpl degree. fold b D.
      rewrite Nat.sub_0_r. simpl. fold D in E3. auto. }
  rewrite (call_piece s x J) by auto.
  rewrite (call_piece (cut s jmin jmax) x (J - jmin)); [|apply cut_sorted; auto|apply cut_sized; auto|exact HA'].
  simpl degree. fold b D. unfold piece.
  apply bl_ext; rewrite repeat_length; intros i Hi; rewrite !shn_spec.
  - rewrite cut_cf by (fold b D; lia). f_equal. lia.
  - rewrite cut_kn by lia. fold b. f_equal. lia.
Qed.

Lemma crop_is_cut : forall s lo hi, nondecreasing (knots (sbasis s)) ->
  let ts := repeat lo (degree (sbasis s) + 1 - count_eq (knots (sbasis s)) lo)
         ++ repeat hi (degree (sbasis s) + 1 - count_eq (knots (sbasis s)) hi) in
  let s2 := ins_all s ts in
  degree (sbasis s2) = degree (sbasis s) ->
  crop_spline s lo hi
  = cut s2 (searchsorted_left (knots (sbasis s2)) lo) (searchsorted_right (knots (sbasis s2)) hi).
Proof.
  intros s lo hi Hs ts s2 HD. unfold crop_spline. fold ts.
  rewrite knot_insertion_ins_all by auto. fold s2. unfold cut. rewrite HD. reflexivity.
Qed.

(** common part: x in the cropped interval, active in the refined spline *)
Lemma crop_common : forall s lo hi x, well_formed (sbasis s) -> sized s -> lo < hi ->
  in_domain (sbasis s) x ->
  (lo < x \/ (x = lo /\ lo = nth 0 (knots (sbasis s)) 0)) -> x <= hi ->
  (nth 0 (knots (sbasis s)) 0 < x \/
    (Forall (fun t => nth 0 (knots (sbasis s)) 0 < t)
      (repeat lo (degree (sbasis s) + 1 - count_eq (knots (sbasis s)) lo)
         ++ repeat hi (degree (sbasis s) + 1 - count_eq (knots (sbasis s)) hi)))) ->
  call (crop_spline s lo hi) x = call s x.
Proof.
  intros s lo hi x WF SZ Hlh HD Hlo Hhi H0.
  destruct (active_exists _ _ WF HD) as [J HA].
  destruct WF as [Hs Hl].
  set (ts := repeat lo (degree (sbasis s) + 1 - count_eq (knots (sbasis s)) lo)
         ++ repeat hi (degree (sbasis s) + 1 - count_eq (knots (sbasis s)) hi)) in *.
  destruct (ins_all_call ts s x J Hs SZ HA H0) as (C & S2 & Z2 & D2 & P2 & J2 & A2).
  set (s2 := ins_all s ts) in *.
  rewrite crop_is_cut by auto. fold ts. fold s2.
  set (k2 := knots (sbasis s2)) in *.
  set (jmin := searchsorted_left k2 lo). set (jmax := searchsorted_right k2 hi).
  rewrite <- C.
  set (D := degree (sbasis s)) in *.
  assert (CL : (D + 1 <= count_eq k2 lo)%nat).
  { unfold count_eq. rewrite (count_perm _ _ _ P2). rewrite filter_app, app_length.
    unfold ts. rewrite filter_app, app_length, !filter_repeat.
    replace (Reqb lo lo) with true by (symmetry; apply Reqb_true; reflexivity).
    fold (count_eq (knots (sbasis s)) lo). lia. }
  assert (CH : (D + 1 <= count_eq k2 hi)%nat).
  { unfold count_eq. rewrite (count_perm _ _ _ P2). rewrite filter_app, app_length.
    unfold ts. rewrite filter_app, app_length, !filter_repeat.
    replace (Reqb hi hi) with true by (symmetry; apply Reqb_true; reflexivity).
    fold (count_eq (knots (sbasis s)) hi). lia. }
  pose proof A2 as (G1 & G2 & G3 & G4). rewrite D2 in G1, G2. fold k2 in G2. fold D in G1, G2.
  assert (JM : (jmax <= length k2)%nat) by apply filter_length_le.
  pose proof (count_le_lt_eq k2 lo) as QL. pose proof (count_le_lt_eq k2 hi) as QH.
  fold (searchsorted_left k2 lo) in QL. fold jmin in QL.
  fold (searchsorted_right k2 hi) in QH. fold jmax in QH.
  assert (LL : (length (filter (fun a => Rleb a lo) k2) <= length k2)%nat) by apply filter_length_le.
  assert (XJ : kn (sbasis s2) J2 <= x <= kn (sbasis s2) (J2 + 1)) by (destruct G4 as [?|?]; lra).
  (* knots just below and above *)
  assert (KLO : nth (jmin + D) k2 0 <= lo).
  { apply sorted_le_index; auto; [lia|]. unfold searchsorted_right. lia. }
  assert (KHI : hi <= nth (jmax - D - 1) k2 0).
  { destruct (Rle_dec hi (nth (jmax - D - 1) k2 0)) as [|N]; auto.
    assert (nth (jmax - D - 1) k2 0 < hi) by lra.
    apply sorted_lt_index in H; auto; [|lia]. unfold searchsorted_left in H. lia. }
  assert (B2 : (J2 + D + 1 < jmax)%nat).
  { destruct (lt_dec (J2 + D + 1) jmax) as [|N]; auto. exfalso.
    assert (nth (jmax - D - 1) k2 0 <= kn (sbasis s2) J2) by (apply S2; lia).
    destruct G4 as [[? ?]|[E1 [E2 E3]]]; [lra|].
    rewrite D2 in E3. fold D in E3.
    (* x = hi = first knot *)
    assert (x = hi) by lra.
    destruct Hlo as [Hlo|[Hlo _]]; [|lra].
    assert (kn (sbasis s2) (J2 + 1) <= hi -> False) by (intro; lra).
    assert (nth (jmin + D) k2 0 <= lo) by auto.
    assert (kn (sbasis s2) 0 <= nth (jmin + D) k2 0) by (apply S2; lia). lra. }
  destruct (Rlt_dec (kn (sbasis s2) J2) x) as [XS|XS].
  - assert (B1 : (jmin + D <= J2)%nat).
    { destruct (le_lt_dec (jmin + D) J2) as [|N]; auto. exfalso.
      assert (kn (sbasis s2) (J2 + 1) <= nth (jmin + D) k2 0) by (apply S2; lia).
      destruct Hlo as [?|[? E]]; [lra|].
      assert (kn (sbasis s2) (J2 + 1) = lo) by lra.
      (* all knots of s2 are at least lo = first knot of s *)
      assert (kn (sbasis s2) J2 < lo) by lra.
      assert (IN : In (kn (sbasis s2) J2) (ts ++ knots (sbasis s))).
      { apply (Permutation_in _ P2). apply nth_In. fold k2. lia. }
      apply in_app_or in IN. destruct IN as [IN|IN].
      - unfold ts in IN. apply in_app_or in IN.
        destruct IN as [IN|IN]; apply repeat_spec in IN; lra.
      - destruct (In_nth _ _ 0 IN) as (q & Hq & Eq).
        pose proof (Hs 0%nat q ltac:(lia) Hq). lra. }
    apply (cut_call s2 jmin jmax x J2); auto; rewrite ?D2; auto.
  - destruct G4 as [[? ?]|[E1 [E2 E3]]]; [lra|].
    rewrite D2 in E3. fold D in E3.
    assert (JZ : jmin = 0%nat).
    { unfold jmin, searchsorted_left.
      destruct (filter (fun a => Rltb a lo) k2) as [|y q] eqn:Q; [reflexivity|]. exfalso.
      assert (IN : In y (filter (fun a => Rltb a lo) k2)) by (rewrite Q; left; reflexivity).
      apply filter_In in IN. destruct IN as [IN1 IN2]. apply Rltb_true in IN2.
      destruct (In_nth _ _ 0 IN1) as (r & Hr & Er).
      assert (kn (sbasis s2) 0 <= nth r k2 0) by (apply S2; auto; lia). lra. }
    apply (cut_call s2 jmin jmax x J2); auto; rewrite ?D2; auto. fold D. lia.
Qed.

Theorem crop_call : forall s lo hi x, well_formed (sbasis s) -> sized s ->
  dom_left (sbasis s) <= lo -> hi <= dom_right (sbasis s) -> lo < x <= hi ->
  call (crop_spline s lo hi) x = call s x.
Proof.
  intros s lo hi x WF SZ H1 H2 [H3 H4]. apply crop_common; auto.
  - lra.
  - left. lra.
  - left. destruct WF as [Hs Hl].
    pose proof (Hs 0%nat (degree (sbasis s)) ltac:(lia) ltac:(lia)). unfold dom_left in H1. lra.
Qed.

(** cropping from the clamped start keeps the start value *)
Theorem crop_call_start : forall s lo hi, well_formed (sbasis s) -> sized s ->
  lo = nth 0 (knots (sbasis s)) 0 -> lo = dom_left (sbasis s) ->
  lo < nth (degree (sbasis s) + 1) (knots (sbasis s)) 0 ->
  lo < hi <= dom_right (sbasis s) ->
  call (crop_spline s lo hi) lo = call s lo.
Proof.
  intros s lo hi WF SZ H0 H1 H2 [H3 H4]. apply crop_common; auto; try lra.
  - right. split; [congruence|]. split; [auto|]. rewrite <- H1. exact H2.
  - right. rewrite <- H0. apply Forall_app. split.
    + assert (CE : (degree (sbasis s) + 1 <= count_eq (knots (sbasis s)) lo)%nat).
      { destruct WF as [Hs Hl]. pose proof (count_le_lt_eq (knots (sbasis s)) lo) as Q.
        assert (E : filter (fun a => Rltb a lo) (knots (sbasis s)) = []).
        { destruct (filter (fun a => Rltb a lo) (knots (sbasis s))) as [|y q] eqn:E; [reflexivity|].
          exfalso. assert (IN : In y (filter (fun a => Rltb a lo) (knots (sbasis s)))) by (rewrite E; left; reflexivity).
          apply filter_In in IN. destruct IN as [IN1 IN2]. apply Rltb_true in IN2.
          destruct (In_nth _ _ 0 IN1) as (r & Hr & Er).
          pose proof (Hs 0%nat r ltac:(lia) Hr). lra. }
        rewrite E in Q. simpl in Q. rewrite <- Q.
        assert (degree (sbasis s) < searchsorted_right (knots (sbasis s)) lo)%nat.
        { apply sorted_le_index; auto; [lia|]. unfold dom_left in H1. lra. }
        unfold searchsorted_right in H. lia. }
      replace (degree (sbasis s) + 1 - count_eq (knots (sbasis s)) lo)%nat with 0%nat by lia.
      constructor.
    + apply Forall_forall. intros t Ht. apply repeat_spec in Ht. lra.
Qed.

(** Greville points *)
Lemma fold_left_Rplus_bounds : forall l a lo hi, (forall x, In x l -> lo <= x <= hi) ->
  a + INR (length l) * lo <= fold_left Rplus l a <= a + INR (length l) * hi.
Proof.
  induction l as [|y l IH]; intros a lo hi H.
  - simpl. lra.
  - simpl fold_left. simpl length. rewrite S_INR.
    pose proof (IH (a + y) lo hi ltac:(intros; apply H; right; auto)).
    pose proof (H y ltac:(left; reflexivity)). lra.
Qed.

Theorem greville_bounds : forall b i, well_formed b -> (1 <= degree b)%nat ->
  (i < blen b)%nat ->
  nth (i + 1) (knots b) 0 <= nth i (greville b) 0 <= nth (i + degree b) (knots b) 0.
Proof.
  intros b i [Hs Hl] HD Hi. unfold greville. rewrite nth_map_seq by auto. unfold blen in Hi.
  pose proof (fold_left_Rplus_bounds (map (kn b) (seq (i + 1) (degree b))) 0
    (nth (i + 1) (knots b) 0) (nth (i + degree b) (knots b) 0)) as B.
  rewrite map_length, seq_length in B.
  assert (P : 0 < INR (degree b)) by (apply lt_0_INR; lia).
  assert (Q : forall x, In x (map (kn b) (seq (i + 1) (degree b))) ->
     nth (i + 1) (knots b) 0 <= x <= nth (i + degree b) (knots b) 0).
  { intros x Hx. apply in_map_iff in Hx. destruct Hx as (j & <- & Hj). apply in_seq in Hj.
    unfold kn. split; apply Hs; lia. }
  specialize (B Q). rewrite !Rplus_0_l in B.
  set (S := fold_left Rplus (map (kn b) (seq (i + 1) (degree b))) 0) in *.
  assert (I : INR (degree b) * (1 / INR (degree b)) = 1) by (field; lra).
  assert (0 < 1 / INR (degree b)) by (apply Rdiv_lt_0_compat; lra).
  split.
  - apply Rmult_le_reg_l with (INR (degree b)); auto.
    replace (INR (degree b) * (1 / INR (degree b) * S)) with S by (field; lra). lra.
  - apply Rmult_le_reg_l with (INR (degree b)); auto.
    replace (INR (degree b) * (1 / INR (degree b) * S)) with S by (field; lra). lra.
Qed.

(** linear precision: the spline whose coefficients are the Greville points is
    the identity *)
Definition avg (d : nat) (us : list R) : R := 1 / INR d * fold_left Rplus us 0.

Lemma fold_left_Rplus_acc : forall l a, fold_left Rplus l a = a + fold_left Rplus l 0.
Proof.
  induction l as [|y l IH]; intros a; simpl; [ring|]. rewrite IH, (IH (0 + y)). ring.
Qed.
Lemma fold_left_Rplus_perm : forall l l', Permutation l l' ->
  fold_left Rplus l 0 = fold_left Rplus l' 0.
Proof.
  induction 1; simpl; auto.
  - rewrite (fold_left_Rplus_acc l), (fold_left_Rplus_acc l'). lra.
  - rewrite (fold_left_Rplus_acc l (0 + y + x)), (fold_left_Rplus_acc l (0 + x + y)). ring.
  - congruence.
Qed.
Lemma avg_symaff : forall d, symaff d (avg d).
Proof.
  intros d. split.
  - intros us vs _ P. unfold avg. rewrite (fold_left_Rplus_perm _ _ P). reflexivity.
  - intros us w u v H. unfold avg. simpl.
    rewrite (fold_left_Rplus_acc us (0 + u)), (fold_left_Rplus_acc us (0 + v)),
      (fold_left_Rplus_acc us (0 + ((1 - w) * u + w * v))). ring.
Qed.

Theorem greville_identity : forall b x, well_formed b -> (1 <= degree b)%nat -> in_domain b x ->
  call (mkS b (greville b)) x = x.
Proof.
  intros b x WF HD Hx. destruct (active_exists _ _ WF Hx) as [J HA].
  destruct WF as [Hs Hl].
  assert (SZ : sized (mkS b (greville b))).
  { unfold sized, greville. simpl. rewrite map_length, seq_length. reflexivity. }
  rewrite (call_piece (mkS b (greville b)) x J) by auto. simpl sbasis.
  pose proof (active_pos _ _ _ Hs HA) as AP. pose proof HA as (H1 & H2 & _).
  transitivity (avg (degree b) (repeat x (degree b))).
  - rewrite <- (piece_reconstruct (degree b) (kn b) J (avg (degree b)) (repeat x (degree b)));
      auto using avg_symaff, repeat_length.
    apply piece_ext; auto using repeat_length.
    intros i Hi. unfold cf. simpl. unfold greville. rewrite nth_map_seq by (unfold blen; lia).
    unfold avg. replace (i + 1)%nat with (S i) by lia. reflexivity.
  - unfold avg. assert (E : forall n, fold_left Rplus (repeat x n) 0 = INR n * x).
    { induction n; [simpl; ring|]. simpl repeat. simpl fold_left. rewrite fold_left_Rplus_acc, IHn, S_INR. ring. }
    rewrite E. field. apply not_0_INR. lia.
Qed.


(** equality and hash *)
Lemma all_equal_spec : forall l l', length l = length l' -> all_equal l l' = true -> l = l'.
Proof.
  induction l as [|a l IH]; intros [|c l'] H E; try discriminate; [reflexivity|].
  simpl in E. apply andb_true_iff in E. destruct E as [E1 E2]. apply Reqb_true in E1.
  f_equal; auto.
Qed.

Theorem basis_eq_hash : forall h1 h2 b1 b2, basis_eq b1 b2 = true ->
  basis_hash h1 h2 b1 = basis_hash h1 h2 b2.
Proof.
  intros h1 h2 [k1 d1] [k2 d2] E. unfold basis_eq in E. simpl in E.
  apply andb_true_iff in E. destruct E as [E E3].
  apply andb_true_iff in E. destruct E as [E1 E2].
  apply Nat.eqb_eq in E1, E3. apply all_equal_spec in E2; auto. subst. reflexivity.
Qed.

Theorem basis_eq_spec : forall b1 b2, basis_eq b1 b2 = true <-> b1 = b2.
Proof.
  intros [k1 d1] [k2 d2]. split.
  - intros E. unfold basis_eq in E. simpl in E.
    apply andb_true_iff in E. destruct E as [E E3].
    apply andb_true_iff in E. destruct E as [E1 E2].
    apply Nat.eqb_eq in E1, E3. apply all_equal_spec in E2; auto. subst. reflexivity.
  - intros E. inversion E; subst. unfold basis_eq. simpl. rewrite !Nat.eqb_refl. simpl.
    rewrite andb_true_r. clear. induction k2; [reflexivity|]. simpl. rewrite IHk2.
    replace (Reqb a a) with true by (symmetry; apply Reqb_true; reflexivity). reflexivity.
Qed.
