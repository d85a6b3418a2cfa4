(** Knot insertion and cropping preserve the curve. *)
From Coq Require Import Reals Lra Lia List Arith Bool Permutation.
From Verif Require Import Blossom Spline_Model Spline_Spec Spline_Proofs Spline_Proofs2.
Import ListNotations.
Local Open Scope R_scope.

(** ** sorted insertion *)
Lemma nondecreasing_cons : forall a l, nondecreasing (a :: l) <->
  (forall x, In x l -> a <= x) /\ nondecreasing l.
Proof.
  intros a l. split.
  - intros H. split.
    + intros x Hx. destruct (In_nth _ _ 0 Hx) as (i & Hi & <-).
      apply (H 0%nat (S i)); simpl; lia.
    + intros i j Hij Hj. apply (H (S i) (S j)); simpl; lia.
  - intros [H1 H2] i j Hij Hj. destruct j as [|j].
    + replace i with 0%nat by lia. apply Rle_refl.
    + destruct i as [|i].
      * simpl nth at 2. apply H1. apply nth_In. simpl in Hj. lia.
      * simpl. apply H2; simpl in Hj; lia.
Qed.

Lemma in_insert_sorted : forall t l x, In x (insert_sorted t l) <-> x = t \/ In x l.
Proof.
  induction l as [|a l IH]; intros x; simpl; [intuition|].
  destruct (Rleb t a); simpl; [intuition|]. rewrite IH. intuition.
Qed.

Lemma insert_sorted_nondecreasing : forall t l, nondecreasing l -> nondecreasing (insert_sorted t l).
Proof.
  induction l as [|a l IH]; intros H.
  - simpl. intros i j Hij Hj. simpl in Hj. replace i with 0%nat by lia. replace j with 0%nat by lia. apply Rle_refl.
  - simpl. apply nondecreasing_cons in H. destruct H as [H1 H2].
    destruct (Rleb t a) eqn:E.
    + apply Rleb_true in E. apply nondecreasing_cons. split.
      * intros x [<-|Hx]; [exact E|]. apply Rle_trans with a; auto.
      * apply nondecreasing_cons. auto.
    + apply Rleb_false in E. apply nondecreasing_cons. split.
      * intros x Hx. apply in_insert_sorted in Hx. destruct Hx as [->|Hx]; [lra|auto].
      * auto.
Qed.

Lemma insert_insert : forall a t l, nondecreasing (a :: l) ->
  insert_sorted a (insert_sorted t l) = insert_sorted t (a :: l).
Proof.
  intros a t l H. apply nondecreasing_cons in H. destruct H as [H1 H2]. simpl.
  destruct (Rleb t a) eqn:E.
  - apply Rleb_true in E.
    assert (X : insert_sorted t l = t :: l).
    { destruct l as [|c l]; [reflexivity|]. simpl.
      replace (Rleb t c) with true; [reflexivity|]. symmetry. apply Rleb_true.
      apply Rle_trans with a; [lra|]. apply H1. left; reflexivity. }
    assert (Y : insert_sorted a l = a :: l).
    { destruct l as [|c l]; [reflexivity|]. simpl.
      replace (Rleb a c) with true; [reflexivity|]. symmetry. apply Rleb_true.
      apply H1. left; reflexivity. }
    rewrite X. simpl. rewrite Y. destruct (Rleb a t) eqn:E2; [|reflexivity].
    apply Rleb_true in E2. replace a with t by lra. reflexivity.
  - apply Rleb_false in E.
    assert (Y : forall q, (forall x, In x q -> a <= x) -> insert_sorted a q = a :: q).
    { intros [|c q] Hq; [reflexivity|]. simpl.
      replace (Rleb a c) with true; [reflexivity|]. symmetry. apply Rleb_true.
      apply Hq. left; reflexivity. }
    apply Y. intros x Hx. apply in_insert_sorted in Hx. destruct Hx as [->|Hx]; [lra|auto].
Qed.

Lemma py_sorted_snoc : forall l t, nondecreasing l -> py_sorted (l ++ [t]) = insert_sorted t l.
Proof.
  induction l as [|a l IH]; intros t H; [reflexivity|].
  simpl app. simpl py_sorted. rewrite IH by (apply nondecreasing_cons in H; apply H).
  apply insert_insert. exact H.
Qed.

(** position of the inserted knot *)
Fixpoint ipos (t : R) (l : list R) : nat :=
  match l with [] => 0 | a :: l' => if Rleb t a then 0 else S (ipos t l') end.

Lemma ipos_le : forall t l, (ipos t l <= length l)%nat.
Proof. induction l as [|a l IH]; simpl; [lia|]. destruct (Rleb t a); lia. Qed.

Lemma insert_sorted_length : forall t l, length (insert_sorted t l) = S (length l).
Proof. induction l as [|a l IH]; simpl; [reflexivity|]. destruct (Rleb t a); simpl; lia. Qed.

Lemma insert_sorted_nth : forall t l i, (i <= length l)%nat ->
  nth i (insert_sorted t l) 0
  = if (i <? ipos t l)%nat then nth i l 0 else if (i =? ipos t l)%nat then t else nth (i - 1) l 0.
Proof.
  induction l as [|a l IH]; intros i Hi.
  - simpl in *. replace i with 0%nat by lia. reflexivity.
  - simpl. destruct (Rleb t a) eqn:E.
    + destruct i as [|i]; [reflexivity|]. simpl. rewrite Nat.sub_0_r. reflexivity.
    + destruct i as [|i]; [reflexivity|].
      change (nth (S i) (a :: insert_sorted t l) 0) with (nth i (insert_sorted t l) 0).
      rewrite IH by (simpl in Hi; lia).
      replace (S i <? S (ipos t l))%nat with (i <? ipos t l)%nat by reflexivity.
      simpl (S i =? S (ipos t l))%nat.
      destruct (i <? ipos t l)%nat eqn:E1; [reflexivity|].
      destruct (Nat.eqb_spec i (ipos t l)); [reflexivity|].
      apply Nat.ltb_ge in E1. replace (S i - 1)%nat with (S (i - 1)) by lia. reflexivity.
Qed.

Lemma ipos_below : forall t l i, nondecreasing l -> (i < ipos t l)%nat -> nth i l 0 < t.
Proof.
  induction l as [|a l IH]; intros i H Hi; [simpl in Hi; lia|].
  simpl in Hi. destruct (Rleb t a) eqn:E; [lia|]. apply Rleb_false in E.
  destruct i as [|i]; [exact E|]. simpl. apply IH; [apply nondecreasing_cons in H; apply H|lia].
Qed.
Lemma ipos_above : forall t l i, nondecreasing l -> (ipos t l <= i)%nat -> (i < length l)%nat -> t <= nth i l 0.
Proof.
  induction l as [|a l IH]; intros i H Hi Hl; [simpl in Hl; lia|].
  simpl in Hi. destruct (Rleb t a) eqn:E.
  - apply Rleb_true in E. apply Rle_trans with a; auto.
    apply (H 0%nat i); lia.
  - destruct i as [|i]; [lia|]. simpl. apply IH; [apply nondecreasing_cons in H; apply H|lia|simpl in Hl; lia].
Qed.

(** ** one insertion *)
Definition ins1 (s : bspline) (t : R) : bspline :=
  mkS (mkB (insert_sorted t (knots (sbasis s))) (degree (sbasis s)))
      (ins_coeffs (knots (sbasis s)) (degree (sbasis s)) t (coeffs s)).

Lemma ins1_sized : forall s t, (degree (sbasis s) + 1 <= length (knots (sbasis s)))%nat ->
  sized s -> sized (ins1 s t).
Proof.
  intros s t L SZ. unfold sized in *. simpl. unfold ins_coeffs. rewrite map_length, seq_length.
  rewrite insert_sorted_length. lia.
Qed.

(** value-level description of the new knots *)
Section Ins.
  Variables (k : nat -> R) (p : nat) (t : R).
  Definition kt (i : nat) : R :=
    if (i <? p)%nat then k i else if (i =? p)%nat then t else k (i - 1)%nat.
  Lemma kt_lo : forall i, (i < p)%nat -> kt i = k i.
  Proof. intros. unfold kt. replace (i <? p)%nat with true by (symmetry; apply Nat.ltb_lt; lia). reflexivity. Qed.
  Lemma kt_p : kt p = t.
  Proof. unfold kt. rewrite Nat.ltb_irrefl, Nat.eqb_refl. reflexivity. Qed.
  Lemma kt_hi : forall i, (p < i)%nat -> kt i = k (i - 1)%nat.
  Proof.
    intros. unfold kt. replace (i <? p)%nat with false by (symmetry; apply Nat.ltb_ge; lia).
    replace (i =? p)%nat with false by (symmetry; apply Nat.eqb_neq; lia). reflexivity.
  Qed.
End Ins.

Lemma map_seq_ext : forall (f g : nat -> R) i n,
  (forall j, (i <= j < i + n)%nat -> f j = g j) -> map f (seq i n) = map g (seq i n).
Proof. intros. apply map_ext_in. intros a Ha. apply in_seq in Ha. apply H. lia. Qed.

Lemma map_seq_pred : forall (k : nat -> R) i n, (1 <= i)%nat ->
  map (fun j => k (j - 1)%nat) (seq i n) = map k (seq (i - 1) n).
Proof.
  intros k i n. revert i. induction n; intros i H; [reflexivity|]. simpl. f_equal.
  rewrite IHn by lia. replace (S i - 1)%nat with (S (i - 1)) by lia. reflexivity.
Qed.

(** the new coefficient is the blossom at consecutive new knots *)
Lemma ins_blossom : forall d k c J p t F j w,
  (d <= J)%nat -> actpos d k J -> symaff d F ->
  (forall a, (J - d <= a <= J)%nat -> F (map k (seq (S a) d)) = c a) ->
  (* t is at position p *)
  (* cases for row j *)
  ((w = 0 /\ (p <= j)%nat /\ (J - d < j <= J + 1)%nat) \/
   (w = 1 /\ (J - d <= j <= J)%nat /\
      ((j + d < p)%nat \/ ((p <= j + d)%nat /\ forall i, (p <= i <= j + d)%nat -> k i = t))) \/
   (k j < t < k (j + d)%nat /\ (j < p <= j + d)%nat /\ (J - d < j <= J)%nat /\ (1 <= d)%nat /\
     w = (t - k j) / (k (j + d)%nat - k j))) ->
  (1 - w) * c (j - 1)%nat + w * c j = F (map (kt k p t) (seq (S j) d)).
Proof.
  intros d k c J p t F j w HJ AP SF Hdual [[-> [Hp Hj]]|[[-> [Hj Hp]]|(Ht & Hp & Hj & Hd & ->)]].
  - rewrite (map_seq_ext _ (fun i => k (i - 1)%nat)) by (intros; apply kt_hi; lia).
    rewrite map_seq_pred by lia. replace (S j - 1)%nat with (S (j - 1)) by lia.
    rewrite Hdual by lia. ring.
  - rewrite (map_seq_ext _ k).
    + rewrite Hdual by lia. ring.
    + intros i Hi. destruct Hp as [Hp|[Hp He]].
      * apply kt_lo. lia.
      * destruct (lt_eq_lt_dec i p) as [[H|H]|H].
        -- apply kt_lo; lia.
        -- subst i. rewrite kt_p. symmetry. apply He. lia.
        -- rewrite kt_hi by lia. rewrite !He by lia. reflexivity.
  - set (mid := map k (seq (S j) (d - 1))).
    assert (PM : Permutation (map (kt k p t) (seq (S j) d)) (t :: mid)).
    { replace d with ((p - S j) + (1 + (d - 1 - (p - S j))))%nat by lia.
      rewrite seq_app, map_app, seq_app, map_app.
      replace (S j + (p - S j))%nat with p by lia. simpl seq. simpl map. rewrite kt_p.
      unfold mid. replace (d - 1)%nat with ((p - S j) + (d - 1 - (p - S j)))%nat at 2 by lia.
      rewrite seq_app, map_app. replace (S j + (p - S j))%nat with p by lia.
      rewrite (map_seq_ext _ k (S j)) by (intros; apply kt_lo; lia).
      rewrite (map_seq_ext _ (fun i => k (i - 1)%nat) (p + 1)) by (intros; apply kt_hi; lia).
      rewrite map_seq_pred by lia. replace (p + 1 - 1)%nat with p by lia.
      symmetry. apply Permutation_middle. }
    assert (LM : length mid = (d - 1)%nat) by (unfold mid; rewrite map_length, seq_length; reflexivity).
    rewrite (sa_perm _ _ SF _ (t :: mid)) by (auto; rewrite map_length, seq_length; reflexivity).
    set (w := (t - k j) / (k (j + d)%nat - k j)).
    assert (Et : t = (1 - w) * k j + w * k (j + d)%nat) by (unfold w; field; lra).
    rewrite Et. rewrite (sa_aff _ _ SF) by lia.
    assert (A : F (k j :: mid) = c (j - 1)%nat).
    { rewrite <- Hdual by lia. replace (S (j - 1)) with j by lia.
      replace d with (S (d - 1)) at 1 by lia. reflexivity. }
    assert (B : F (k (j + d)%nat :: mid) = c j).
    { rewrite <- Hdual by lia. apply (sa_perm _ _ SF); [simpl; lia|].
      replace d with (S (d - 1)) at 2 by lia. symmetry.
      replace (j + d)%nat with (S j + (d - 1))%nat by lia. apply seq_rot. }
    rewrite A, B. reflexivity.
Qed.

(** keeps an active interval and the value *)
Theorem ins1_call : forall s x t J, nondecreasing (knots (sbasis s)) -> sized s ->
  active (sbasis s) x J ->
  (kn (sbasis s) J < x \/ kn (sbasis s) 0 < t) ->
  call (ins1 s t) x = call s x /\
  exists J', active (sbasis (ins1 s t)) x J' /\
    (kn (sbasis (ins1 s t)) J' < x \/ kn (sbasis (ins1 s t)) 0 = kn (sbasis s) 0).
Proof.
  intros s x t J Hs SZ HA Hxt.
  set (b := sbasis s) in *. set (D := degree b) in *. set (M := length (knots b)) in *.
  pose proof (active_pos b x J Hs HA) as AP. fold D in AP.
  pose proof HA as (H1 & H2 & H3 & H4). fold D M in H1, H2.
  set (p := ipos t (knots b)).
  assert (Pb : forall i, (i < p)%nat -> kn b i < t) by (intros; apply ipos_below; auto).
  assert (Pa : forall i, (p <= i < M)%nat -> t <= kn b i) by (intros; apply ipos_above; auto; try apply H).
  assert (PL : (p <= M)%nat) by apply ipos_le.
  assert (mono : forall i j, (i <= j)%nat -> (j < M)%nat -> kn b i <= kn b j)
    by (intros; apply Hs; auto).
  assert (KN : forall i, (i <= M)%nat -> kn (sbasis (ins1 s t)) i = kt (kn b) p t i).
  { intros i Hi. unfold kn at 1. simpl. fold b. rewrite insert_sorted_nth by (fold M; lia).
    reflexivity. }
  assert (LN : length (knots (sbasis (ins1 s t))) = S M).
  { simpl. fold b. apply insert_sorted_length. }
  assert (SN : nondecreasing (knots (sbasis (ins1 s t)))).
  { simpl. apply insert_sorted_nondecreasing. exact Hs. }
  assert (SZN : sized (ins1 s t)).
  { apply ins1_sized; auto. fold b D M. lia. }
  (* the new active interval *)
  assert (XB : kn b J <= x <= kn b (J + 1)) by (destruct H4 as [?|?]; lra).
  assert (CASES : exists J', active (sbasis (ins1 s t)) x J' /\
      ((J' = J /\ (J < p)%nat) \/ (J' = (J + 1)%nat /\ (p <= J + 1)%nat /\ t < kn b (J + 1))) /\
      (kn (sbasis (ins1 s t)) J' < x \/ kn (sbasis (ins1 s t)) 0 = kn b 0)).
  { assert (N0 : (0 < p)%nat -> kn (sbasis (ins1 s t)) 0 = kn b 0).
    { intros. rewrite KN by lia. apply kt_lo. lia. }
    destruct (Rlt_dec t (kn b (J + 1))) as [TL|TL].
    - destruct (Rle_dec t (kn b J)) as [TJ|TJ].
      + (* t <= k_J *)
        assert (HpJ : (p <= J)%nat).
        { destruct (le_lt_dec p J); auto. pose proof (Pb J l). lra. }
        assert (XS : kn b J < x).
        { destruct Hxt as [?|?]; auto. destruct H4 as [[? ?]|[E1 [E2 E3]]]; auto. lra. }
        exists (J + 1)%nat. split; [|split].
        * apply active_inside; change (degree (sbasis (ins1 s t))) with D; rewrite ?LN; try lia.
          rewrite !KN by lia.
          rewrite !kt_hi by lia. replace (J + 1 - 1)%nat with J by lia.
          replace (J + 1 + 1 - 1)%nat with (J + 1)%nat by lia. lra.
        * right. repeat split; auto; lia.
        * left. rewrite KN by lia. rewrite kt_hi by lia. replace (J + 1 - 1)%nat with J by lia. exact XS.
      + (* k_J < t < k_{J+1} *)
        assert (Ep : p = (J + 1)%nat).
        { destruct (lt_eq_lt_dec p (J + 1)) as [[L|L]|L]; auto.
          - pose proof (Pa J ltac:(lia)). lra.
          - pose proof (Pb (J + 1)%nat L). lra. }
        destruct (Rle_dec x t) as [XT|XT].
        * exists J. split; [|split].
          -- split; [exact H1|]. split; [change (degree (sbasis (ins1 s t))) with D; rewrite LN; lia|].
             assert (Q1 : kn (sbasis (ins1 s t)) J = kn b J) by (rewrite KN by lia; apply kt_lo; lia).
             assert (Q2 : kn (sbasis (ins1 s t)) (J + 1) = t)
               by (rewrite KN by lia; rewrite <- Ep; apply kt_p).
             rewrite Q1, Q2, N0 by lia. split; [lra|].
             destruct H4 as [?|[? [? ?]]]; [left; lra|right; auto].
          -- left. split; auto; lia.
          -- right. apply N0. lia.
        * exists (J + 1)%nat.
          assert (Q1 : kn (sbasis (ins1 s t)) (J + 1) = t)
               by (rewrite KN by lia; rewrite <- Ep; apply kt_p).
          assert (Q2 : kn (sbasis (ins1 s t)) (J + 1 + 1) = kn b (J + 1)).
          { rewrite KN by lia. rewrite kt_hi by lia. f_equal. lia. }
          split; [|split].
          -- apply active_inside; change (degree (sbasis (ins1 s t))) with D; rewrite ?LN; try lia.
             rewrite Q1, Q2. lra.
          -- right. repeat split; auto; lia.
          -- right. apply N0. lia.
    - (* t >= k_{J+1} *)
      assert (HpJ : (J < p)%nat).
      { destruct (le_lt_dec p J); auto. pose proof (Pa J ltac:(lia)). lra. }
      assert (Q1 : kn (sbasis (ins1 s t)) J = kn b J) by (rewrite KN by lia; apply kt_lo; lia).
      assert (Q2 : kn (sbasis (ins1 s t)) (J + 1) = kn b (J + 1)).
      { rewrite KN by lia. destruct (Nat.eq_dec p (J + 1)) as [E|E].
        - rewrite <- E. rewrite kt_p. pose proof (Pa (J + 1)%nat ltac:(lia)). rewrite E. lra.
        - apply kt_lo; lia. }
      exists J. split; [|split].
      + split; [exact H1|]. split; [change (degree (sbasis (ins1 s t))) with D; rewrite LN; lia|].
        rewrite Q1, Q2, N0 by lia. split; [lra|].
        destruct H4 as [?|[? [? ?]]]; [left; lra|right; auto].
      + left. split; auto.
      + right. apply N0. lia. }
  destruct CASES as (J' & HA' & HC & HE).
  split; [|exists J'; auto].
  rewrite (call_piece s x J) by auto. fold b D.
  rewrite (call_piece (ins1 s t) x J') by auto.
  change (degree (sbasis (ins1 s t))) with D.
  set (F := piece D (kn b) (cf s) J).
  assert (SF : symaff D F) by (apply piece_symaff; auto).
  pose proof (active_pos _ _ _ SN HA') as AP'. change (degree (sbasis (ins1 s t))) with D in AP'.
  pose proof HA' as (G1 & G2 & G3 & G4). change (degree (sbasis (ins1 s t))) with D in G1, G2.
  rewrite LN in G2.
  rewrite <- (piece_reconstruct D (kn (sbasis (ins1 s t))) J' F (repeat x D)); auto.
  2:{ apply repeat_length. }
  apply piece_ext; auto; [apply repeat_length|].
  intros j Hj.
  assert (LC : length (coeffs s) = (M - D - 1)%nat) by exact SZ.
  (* left hand side: row j *)
  assert (ROW : cf (ins1 s t) j
     = (1 - ins_weight (knots b) D t j) * (if (j =? 0)%nat then 0 else cf s (j - 1))
       + ins_weight (knots b) D t j * (if (j =? M - D - 1)%nat then 0 else cf s j)).
  { unfold cf at 1, ins1. simpl. unfold ins_coeffs. fold b D. rewrite LC.
    rewrite nth_map_seq by lia. unfold cf.
    destruct (j =? 0)%nat; destruct (j =? M - D - 1)%nat; ring. }
  rewrite ROW.
  rewrite (map_seq_ext _ (kt (kn b) p t)) by (intros; apply KN; lia).
  set (w := ins_weight (knots b) D t j).
  assert (WC : (w = 0 /\ t <= kn b j) \/ (kn b j < t < kn b (j + D) /\ w = (t - kn b j) / (kn b (j + D) - kn b j))
      \/ (w = 1 /\ kn b j < t /\ kn b (j + D) <= t)).
  { unfold w, ins_weight. replace (j + D + 1 - 1)%nat with (j + D)%nat by lia.
    fold (kn b j). fold (kn b (j + D)).
    destruct (Rleb t (kn b j)) eqn:E1.
    - left. apply Rleb_true in E1. auto.
    - apply Rleb_false in E1. right.
      replace (Rltb (kn b j) t) with true by (symmetry; apply Rltb_true; exact E1). simpl.
      destruct (Rltb t (kn b (j + D))) eqn:E2.
      + left. apply Rltb_true in E2. auto.
      + right. apply Rltb_false in E2. auto. }
  rewrite <- (ins_blossom D (kn b) (cf s) J p t F j w); auto.
  - (* the guards for j = 0 and j = N only hide coefficients with weight 0 *)
    destruct (Nat.eqb_spec j 0) as [E0|E0]; destruct (Nat.eqb_spec j (M - D - 1)) as [EN|EN]; try ring.
    + exfalso. lia.
    + subst j. assert (EJ : J' = D) by lia.
      assert (p <= D -> False)%nat.
      { destruct HC as [[? ?]|[? [? ?]]]; lia. }
      destruct WC as [[-> W]|[[W ->]|[-> W]]].
      * exfalso. pose proof (Pb 0%nat ltac:(lia)). lra.
      * exfalso. destruct (Nat.eq_dec D 0) as [Z|Z].
        -- rewrite Z in W. simpl in W. lra.
        -- pose proof (Pb D ltac:(lia)). simpl in W. lra.
      * ring.
    + subst j. destruct HC as [[? ?]|[HJ [? HT]]]; [lia|].
      assert (J + 1 = M - D - 1)%nat by lia. rewrite <- H0 in *.
      destruct WC as [[-> W]|[[W ->]|[-> W]]]; [ring|exfalso; lra|exfalso; lra].
  - intros a Ha. apply piece_dual; auto.
  - destruct WC as [[Ew W]|[[W Ew]|[Ew [W1 W2]]]].
    + left. split; [exact Ew|].
      assert (p <= j)%nat.
      { destruct (le_lt_dec p j); auto. pose proof (Pb j l). lra. }
      split; [auto|]. destruct HC as [[E Hc]|[E [Hc Hc2]]]; lia.
    + right. right. split; [exact W|].
      assert (JP : (j < p)%nat).
      { destruct (le_lt_dec p j); auto. pose proof (Pa j ltac:(lia)). lra. }
      assert (PJ : (p <= j + D)%nat).
      { destruct (le_lt_dec p (j + D)); auto. pose proof (Pb (j + D)%nat l). lra. }
      assert (1 <= D)%nat.
      { destruct (Nat.eq_dec D 0) as [Z|Z]; [|lia]. rewrite Z, Nat.add_0_r in W. lra. }
      repeat split; auto.
      * destruct HC as [[E Hc]|[E [Hc Hc2]]]; lia.
      * destruct HC as [[E Hc]|[E [Hc Hc2]]]; [lia|].
        destruct (Nat.eq_dec j (J + 1)) as [Z|Z]; [|lia]. subst j. lra.
    + right. left. split; [exact Ew|].
      assert (JP : (j < p)%nat).
      { destruct (le_lt_dec p j); auto. pose proof (Pa j ltac:(lia)). lra. }
      split.
      * destruct HC as [[E Hc]|[E [Hc Hc2]]]; lia.
      * destruct (le_lt_dec p (j + D)) as [Hq|Hq]; [right|left; lia].
        split; [exact Hq|]. intros i Hi.
        pose proof (Pa i ltac:(lia)). pose proof (mono i (j + D)%nat ltac:(lia) ltac:(lia)). lra.
Qed.

Lemma bspline_eta : forall s d, degree (sbasis s) = d ->
  s = mkS (mkB (knots (sbasis s)) d) (coeffs s).
Proof. intros [[k d] c] e H. simpl in *. subst. reflexivity. Qed.

(** ** several insertions *)
Definition ins_all (s : bspline) (ts : list R) : bspline := fold_left ins1 ts s.

Lemma knot_insertion_ins_all : forall ts s, nondecreasing (knots (sbasis s)) ->
  knot_insertion (knots (sbasis s)) (degree (sbasis s)) ts (coeffs s)
  = (coeffs (ins_all s ts), knots (sbasis (ins_all s ts))).
Proof.
  induction ts as [|t ts IH]; intros s Hs; [reflexivity|].
  simpl. rewrite py_sorted_snoc by auto.
  change (ins_all s (t :: ts)) with (ins_all (ins1 s t) ts).
  rewrite <- (IH (ins1 s t)); [reflexivity|]. simpl. apply insert_sorted_nondecreasing. exact Hs.
Qed.

Lemma ins1_kn0 : forall s t, nondecreasing (knots (sbasis s)) -> (0 < length (knots (sbasis s)))%nat ->
  kn (sbasis (ins1 s t)) 0 <= kn (sbasis s) 0 /\
  (kn (sbasis s) 0 < t -> kn (sbasis (ins1 s t)) 0 = kn (sbasis s) 0).
Proof.
  intros s t Hs Hl. unfold kn. simpl. rewrite insert_sorted_nth by lia.
  destruct (0 <? ipos t (knots (sbasis s)))%nat eqn:E; [split; [lra|auto]|].
  apply Nat.ltb_ge in E. replace (ipos t (knots (sbasis s))) with 0%nat by lia. simpl.
  pose proof (ipos_above t (knots (sbasis s)) 0 Hs ltac:(lia) Hl). split; [auto|]. intros; lra.
Qed.

Lemma ins_all_call : forall ts s x J, nondecreasing (knots (sbasis s)) -> sized s ->
  active (sbasis s) x J ->
  (kn (sbasis s) 0 < x \/ Forall (fun t => kn (sbasis s) 0 < t) ts) ->
  call (ins_all s ts) x = call s x /\
  nondecreasing (knots (sbasis (ins_all s ts))) /\ sized (ins_all s ts) /\
  degree (sbasis (ins_all s ts)) = degree (sbasis s) /\
  Permutation (knots (sbasis (ins_all s ts))) (ts ++ knots (sbasis s)) /\
  exists J', active (sbasis (ins_all s ts)) x J'.
Proof.
  induction ts as [|t ts IH]; intros s x J Hs SZ HA Hx.
  - simpl. repeat split; auto. exists J. exact HA.
  - change (ins_all s (t :: ts)) with (ins_all (ins1 s t) ts).
    pose proof HA as (H1 & H2 & H3 & H4).
    assert (H : kn (sbasis s) J < x \/ kn (sbasis s) 0 < t).
    { destruct Hx as [Hx|Hx].
      - left. destruct H4 as [[? ?]|[? [? ?]]]; lra.
      - right. inversion Hx; auto. }
    destruct (ins1_call s x t J Hs SZ HA H) as (C & J' & HA' & _).
    destruct (ins1_kn0 s t Hs ltac:(lia)) as [K1 K2].
    destruct (IH (ins1 s t) x J') as (C' & S' & Z' & D' & P' & A').
    + simpl. apply insert_sorted_nondecreasing. exact Hs.
    + apply ins1_sized; auto. lia.
    + exact HA'.
    + destruct Hx as [Hx|Hx]; [left; lra|right]. inversion Hx; subst.
      rewrite K2 by assumption. assumption.
    + split; [congruence|]. repeat split; auto.
      * rewrite P'. simpl. 
        assert (PI : forall l, Permutation (insert_sorted t l) (t :: l)).
        { induction l as [|a l IHl]; simpl; [reflexivity|]. destruct (Rleb t a); [reflexivity|].
          rewrite IHl. apply perm_swap. }
        rewrite PI. symmetry. apply Permutation_middle.
Qed.

Theorem knot_insertion_call : forall s ts x c2 k2, well_formed (sbasis s) -> sized s ->
  in_domain (sbasis s) x ->
  (nth 0 (knots (sbasis s)) 0 < x \/ Forall (fun t => nth 0 (knots (sbasis s)) 0 < t) ts) ->
  knot_insertion (knots (sbasis s)) (degree (sbasis s)) ts (coeffs s) = (c2, k2) ->
  call (mkS (mkB k2 (degree (sbasis s))) c2) x = call s x /\
  Permutation k2 (ts ++ knots (sbasis s)) /\ nondecreasing k2.
Proof.
  intros s ts x c2 k2 WF SZ HD Hx E.
  destruct (active_exists _ _ WF HD) as [J HA].
  destruct WF as [Hs Hl].
  rewrite knot_insertion_ins_all in E by auto. inversion E; subst c2 k2.
  destruct (ins_all_call ts s x J Hs SZ HA Hx) as (C & S & Z & D & P & A).
  split; [|split; auto].
  rewrite <- C. f_equal. symmetry. apply bspline_eta. exact D.
Qed.
