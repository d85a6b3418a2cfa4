(** Proofs about the spline model: link to blossoms, partition of unity,
    convex hull, arithmetic. *)
From Coq Require Import Reals Lra Lia List Arith Bool Permutation.
From Verif Require Import Blossom Spline_Model Spline_Spec.
Import ListNotations.
Local Open Scope R_scope.

Lemma Rleb_true : forall x y, Rleb x y = true <-> x <= y.
Proof. intros. unfold Rleb. destruct (Rle_dec x y); split; intros; auto; discriminate. Qed.
Lemma Rleb_false : forall x y, Rleb x y = false <-> y < x.
Proof.
  intros. unfold Rleb. destruct (Rle_dec x y); split; intros; auto; try discriminate; lra.
Qed.
Lemma Rltb_true : forall x y, Rltb x y = true <-> x < y.
Proof. intros. unfold Rltb. destruct (Rlt_dec x y); split; intros; auto; discriminate. Qed.
Lemma Rltb_false : forall x y, Rltb x y = false <-> y <= x.
Proof.
  intros. unfold Rltb. destruct (Rlt_dec x y); split; intros; auto; try discriminate; lra.
Qed.
Lemma Reqb_true : forall x y, Reqb x y = true <-> x = y.
Proof. intros. unfold Reqb. destruct (Req_EM_T x y); split; intros; auto; discriminate. Qed.
Lemma Reqb_false : forall x y, Reqb x y = false <-> x <> y.
Proof. intros. unfold Reqb. destruct (Req_EM_T x y); split; intros; auto; try discriminate; contradiction. Qed.

(** ** sums *)
Fixpoint rsum (n : nat) (f : nat -> R) : R :=
  match n with O => 0 | S m => rsum m f + f m end.

Lemma rsum_ext : forall n f g, (forall i, (i < n)%nat -> f i = g i) -> rsum n f = rsum n g.
Proof.
  induction n; intros; simpl; [reflexivity|]. rewrite (IHn f g) by (intros; apply H; lia).
  rewrite H by lia. reflexivity.
Qed.
Lemma rsum_add : forall n f g, rsum n (fun i => f i + g i) = rsum n f + rsum n g.
Proof. induction n; intros; simpl; [ring|]. rewrite IHn. ring. Qed.
Lemma rsum_scal : forall n a f, rsum n (fun i => a * f i) = a * rsum n f.
Proof. induction n; intros; simpl; [ring|]. rewrite IHn. ring. Qed.
Lemma rsum_0 : forall n f, (forall i, (i < n)%nat -> f i = 0) -> rsum n f = 0.
Proof.
  induction n; intros; simpl; [reflexivity|].
  rewrite IHn by (intros; apply H; lia). rewrite H by lia. ring.
Qed.
Lemma rsum_split0 : forall n f, rsum (S n) f = f 0%nat + rsum n (fun i => f (S i)).
Proof.
  induction n; intros; [simpl; ring|].
  change (rsum (S (S n)) f) with (rsum (S n) f + f (S n)). rewrite IHn. simpl. ring.
Qed.
Lemma rsum_delta : forall n a f, (a < n)%nat ->
  rsum n (fun i => f i * (if (i =? a)%nat then 1 else 0)) = f a.
Proof.
  induction n; intros a f H; [lia|]. simpl.
  destruct (Nat.eqb_spec n a) as [->|Hn].
  - rewrite rsum_0; [ring|]. intros i Hi. destruct (Nat.eqb_spec i a); [lia|ring].
  - rewrite IHn by lia. ring.
Qed.
Lemma rsum_shift : forall n f, f 0%nat = 0 -> f n = 0 ->
  rsum n f = rsum n (fun i => f (S i)).
Proof.
  intros n f H0 Hn. assert (E : rsum (S n) f = rsum (S n) f) by reflexivity.
  rewrite rsum_split0 in E at 1. simpl in E. lra.
Qed.

Lemma dot_rsum : forall u v, length u = length v ->
  dot u v = rsum (length u) (fun i => nth i u 0 * nth i v 0).
Proof.
  induction u as [|a u IH]; intros [|c v] H; try discriminate; [reflexivity|].
  simpl length. rewrite rsum_split0. simpl nth. simpl dot. rewrite IH by (simpl in H; lia).
  reflexivity.
Qed.

Lemma total_rsum : forall l, total l = rsum (length l) (fun i => nth i l 0).
Proof.
  induction l as [|a l IH]; [reflexivity|]. simpl length. rewrite rsum_split0.
  change (total (a :: l)) with (a + total l). rewrite IH. reflexivity.
Qed.

(** ** Cox-de Boor from a single active interval *)
Fixpoint NB (d : nat) (k : nat -> R) (J : nat) (x : R) (i : nat) : R :=
  match d with
  | O => if (i =? J)%nat then 1 else 0
  | S d' =>
    (if Reqb (k (i + S d')%nat - k i) 0 then 0
     else (x - k i) * NB d' k J x i / (k (i + S d')%nat - k i))
    + (if Reqb (k (i + S d' + 1)%nat - k (i + 1)%nat) 0 then 0
       else (k (i + S d' + 1)%nat - x) * NB d' k J x (i + 1) / (k (i + S d' + 1)%nat - k (i + 1)%nat))
  end.

Lemma NB_support : forall d k J x i, (i > J \/ i + d < J)%nat -> NB d k J x i = 0.
Proof.
  induction d; intros k J x i H; simpl.
  - destruct (Nat.eqb_spec i J); [lia|reflexivity].
  - rewrite (IHd k J x i), (IHd k J x (i + 1)%nat) by lia.
    destruct (Reqb _ 0); destruct (Reqb _ 0); unfold Rdiv; ring.
Qed.

Lemma NB_sh : forall d k J x i, NB d (sh k) J x i = NB d k (S J) x (S i).
Proof.
  induction d; intros k J x i; simpl.
  - reflexivity.
  - rewrite !IHd. reflexivity.
Qed.

Lemma NB_ext : forall d k k' J x i,
  (forall l, (i <= l <= i + d + 1)%nat -> k l = k' l) ->
  NB d k J x i = NB d k' J x i.
Proof.
  induction d; intros k k' J x i H; simpl; [reflexivity|].
  rewrite (IHd k k' J x i) by (intros; apply H; lia).
  rewrite (IHd k k' J x (i + 1)%nat) by (intros; apply H; lia).
  rewrite !H by lia. reflexivity.
Qed.

Definition actpos (d : nat) (k : nat -> R) (J : nat) : Prop :=
  forall i j, (i <= J)%nat -> (J + 1 <= j)%nat -> (J < i + d)%nat -> (j <= J + d)%nat -> k i < k j.

Lemma actpos_sh : forall d k J, actpos (S d) k (S J) -> actpos d (sh k) J.
Proof. intros d k J H i j H1 H2 H3 H4. unfold sh. apply H; lia. Qed.

Lemma NB_step : forall d k c J x n, actpos (S d) k J -> (d < J)%nat -> (J < n)%nat ->
  rsum n (fun i => c i * NB (S d) k J x i)
  = rsum n (fun i => dbstep d x k c i * NB d k J x (S i)).
Proof.
  intros d k c J x n AP HJ Hn.
  set (w := fun i => (x - k i) / (k (i + S d)%nat - k i)).
  assert (E : forall i, c i * NB (S d) k J x i
     = c i * w i * NB d k J x i + c i * (1 - w (S i)) * NB d k J x (S i)).
  { intros i. simpl NB. unfold w.
    replace (i + 1)%nat with (S i) by lia.
    replace (i + S d + 1)%nat with (S i + S d)%nat by lia.
    assert (T1 : (if Reqb (k (i + S d)%nat - k i) 0 then 0
             else (x - k i) * NB d k J x i / (k (i + S d)%nat - k i))
        = (x - k i) / (k (i + S d)%nat - k i) * NB d k J x i).
    { destruct (Reqb _ 0) eqn:E0.
      - apply Reqb_true in E0.
        rewrite NB_support; [symmetry; apply Rmult_0_r|].
        destruct (le_lt_dec i J); [|lia]. destruct (le_lt_dec J (i + d)); [|lia].
        assert (k i < k (i + S d)%nat) by (apply AP; lia). lra.
      - unfold Rdiv. ring. }
    assert (T2 : (if Reqb (k (S i + S d)%nat - k (S i)) 0 then 0
             else (k (S i + S d)%nat - x) * NB d k J x (S i) / (k (S i + S d)%nat - k (S i)))
        = (1 - (x - k (S i)) / (k (S i + S d)%nat - k (S i))) * NB d k J x (S i)).
    { clear T1. destruct (Reqb (k (S i + S d)%nat - k (S i)) 0) eqn:E0.
      - apply Reqb_true in E0.
        rewrite NB_support; [symmetry; apply Rmult_0_r|].
        destruct (le_lt_dec (S i) J); [|lia]. destruct (le_lt_dec J (S i + d)); [|lia].
        assert (k (S i) < k (S i + S d)%nat) by (apply AP; lia). lra.
      - apply Reqb_false in E0. field. exact E0. }
    rewrite T1, T2. ring. }
  rewrite (rsum_ext _ _ _ (fun i _ => E i)). rewrite rsum_add.
  rewrite (rsum_shift n (fun i => c i * w i * NB d k J x i)).
  - rewrite <- rsum_add. apply rsum_ext. intros i Hi. unfold dbstep, w.
    replace (i + 1)%nat with (S i) by lia.
    replace (i + d + 2)%nat with (S i + S d)%nat by lia. ring.
  - cbv beta. rewrite NB_support by lia. ring.
  - cbv beta. rewrite NB_support by lia. ring.
Qed.

Theorem NB_diag : forall d k c a x n, actpos d k (a + d) -> (a + d < n)%nat ->
  rsum n (fun i => c i * NB d k (a + d) x i) = diag d (shn a k) (shn a c) x.
Proof.
  induction d; intros k c a x n AP Hn.
  - unfold diag. simpl. rewrite rsum_delta by lia. rewrite shn_spec. reflexivity.
  - rewrite NB_step by (auto; lia).
    replace (a + S d)%nat with (S (a + d)) in * by lia.
    transitivity (rsum n (fun i => dbstep d x k c i * NB d (sh k) (a + d) x i)).
    { apply rsum_ext. intros. rewrite NB_sh. reflexivity. }
    rewrite IHd; [|apply actpos_sh; exact AP|lia].
    rewrite diag_S. unfold diag. apply bl_ext.
    + intros i Hi. rewrite shn_spec. unfold dbstep. rewrite !shn_spec.
      replace (a + i + 1)%nat with (a + (i + 1))%nat by lia.
      replace (a + i + d + 2)%nat with (a + (i + d + 2))%nat by lia.
      reflexivity.
    + intros i Hi. unfold sh. rewrite !shn_spec. f_equal. lia.
Qed.

(** ** the model's table *)
Lemma basis_row_length : forall b x d, length (basis_row b x d) = (length (knots b) - d - 1)%nat.
Proof.
  intros b x [|d]; simpl; unfold next_row; rewrite map_length, seq_length; lia.
Qed.

Lemma nth_map_seq : forall (f : nat -> R) n i, (i < n)%nat ->
  nth i (map f (seq 0 n)) 0 = f i.
Proof.
  intros f n i H. rewrite (nth_indep _ 0 (f 0%nat)) by (rewrite map_length, seq_length; exact H).
  rewrite map_nth. rewrite seq_nth by exact H. reflexivity.
Qed.

(** [J] is the knot interval that is active at [x] *)
Definition active (b : bbasis) (x : R) (J : nat) : Prop :=
  (degree b <= J)%nat /\ (J + degree b + 1 < length (knots b))%nat /\
  kn b J < kn b (J + 1) /\
  ((kn b J < x /\ x <= kn b (J + 1)) \/ (x = kn b J /\ kn b 0 = kn b J /\ J = degree b)).

Lemma ind_active : forall b x J i, nondecreasing (knots b) -> active b x J ->
  (i + 1 < length (knots b))%nat -> kn b i < kn b (i + 1) ->
  ind b i x = if (i =? J)%nat then 1 else 0.
Proof.
  intros b x J i Hs (HJ1 & HJ2 & HJ3 & HA) Hi Hlt.
  assert (mono : forall p q, (p <= q)%nat -> (q < length (knots b))%nat -> kn b p <= kn b q)
    by (intros; apply Hs; auto).
  assert (H0x : kn b 0 <= x).
  { pose proof (mono 0%nat J ltac:(lia) ltac:(lia)). destruct HA as [[? ?]|[? ?]]; lra. }
  unfold ind.
  destruct ((i <? degree b + 1)%nat && Reqb (kn b 0) (kn b i)) eqn:C.
  - apply andb_true_iff in C. destruct C as [C1 C2].
    apply Nat.ltb_lt in C1. apply Reqb_true in C2.
    replace (Rleb (kn b i) x) with true by (symmetry; apply Rleb_true; lra). simpl.
    destruct (Nat.eqb_spec i J) as [->|Hne].
    + replace (Rleb x (kn b (J + 1))) with true; [reflexivity|].
      symmetry; apply Rleb_true. destruct HA as [[? ?]|[? ?]]; lra.
    + replace (Rleb x (kn b (i + 1))) with false; [reflexivity|].
      symmetry. apply Rleb_false.
      destruct (lt_dec i J).
      * pose proof (mono (i+1)%nat J ltac:(lia) ltac:(lia)).
        destruct HA as [[? ?]|[? [? ?]]]; lra.
      * pose proof (mono (J+1)%nat i ltac:(lia) ltac:(lia)).
        pose proof (mono 0%nat J ltac:(lia) ltac:(lia)). lra.
  - destruct (Nat.eqb_spec i J) as [->|Hne].
    + replace (Rltb (kn b J) x) with true.
      * replace (Rleb x (kn b (J + 1))) with true; [reflexivity|].
        symmetry; apply Rleb_true. destruct HA as [[? ?]|[? ?]]; lra.
      * symmetry. apply Rltb_true. destruct HA as [[? ?]|[E1 [E2 E3]]]; [lra|].
        exfalso. apply andb_false_iff in C. destruct C as [C|C].
        -- apply Nat.ltb_ge in C. lia.
        -- apply Reqb_false in C. apply C. exact E2.
    + destruct (lt_dec i J).
      * replace (Rleb x (kn b (i + 1))) with false; [rewrite andb_false_r; reflexivity|].
        symmetry. apply Rleb_false.
        pose proof (mono (i+1)%nat J ltac:(lia) ltac:(lia)).
        pose proof (mono 0%nat i ltac:(lia) ltac:(lia)).
        destruct HA as [[? ?]|[? [? ?]]]; lra.
      * replace (Rltb (kn b i) x) with false; [reflexivity|].
        symmetry. apply Rltb_false.
        pose proof (mono (J+1)%nat i ltac:(lia) ltac:(lia)).
        destruct HA as [[? ?]|[? ?]]; lra.
Qed.

Lemma ind_degenerate0 : forall b x J i, nondecreasing (knots b) -> active b x J ->
  degree b = 0%nat -> (i + 1 < length (knots b))%nat -> kn b i = kn b (i + 1) -> ind b i x = 0.
Proof.
  intros b x J i Hs (HJ1 & HJ2 & HJ3 & HA) D Hi He. unfold ind. rewrite D in *.
  assert (mono : forall p q, (p <= q)%nat -> (q < length (knots b))%nat -> kn b p <= kn b q)
    by (intros; apply Hs; auto).
  destruct ((i <? 0 + 1)%nat && Reqb (kn b 0) (kn b i)) eqn:C.
  - apply andb_true_iff in C. destruct C as [C1 C2]. apply Nat.ltb_lt in C1.
    assert (i = 0)%nat by lia. subst i.
    destruct (Rleb (kn b 0) x && Rleb x (kn b (0 + 1))) eqn:B; [|reflexivity].
    apply andb_true_iff in B. destruct B as [B1 B2]. apply Rleb_true in B1, B2.
    pose proof (mono 0%nat J ltac:(lia) ltac:(lia)).
    destruct HA as [[? ?]|[? [? ->]]]; [lra|]. lra.
  - destruct (Rltb (kn b i) x && Rleb x (kn b (i + 1))) eqn:B; [|reflexivity].
    apply andb_true_iff in B. destruct B as [B1 B2]. apply Rltb_true in B1. apply Rleb_true in B2. lra.
Qed.

Lemma basis_row_NB : forall b x J, nondecreasing (knots b) -> active b x J ->
  forall d i, (1 <= d \/ degree b = 0)%nat -> (i + d + 1 < length (knots b))%nat ->
  nth i (basis_row b x d) 0 = NB d (kn b) J x i.
Proof.
  intros b x J Hs HA.
  assert (R0 : forall i, (i + 1 < length (knots b))%nat ->
     nth i (basis_row b x 0) 0 = ind b i x).
  { intros i Hi. simpl. rewrite nth_map_seq by lia. ring. }
  assert (mono : forall p q, (p <= q)%nat -> (q < length (knots b))%nat -> kn b p <= kn b q)
    by (intros; apply Hs; auto).
  induction d as [|d IH]; intros i Hd Hi.
  - destruct Hd as [Hd|Hd]; [lia|]. rewrite R0 by lia. simpl NB.
    destruct (Rlt_dec (kn b i) (kn b (i + 1))).
    + apply ind_active; auto; lia.
    + assert (kn b i = kn b (i + 1)) by (pose proof (mono i (i+1)%nat ltac:(lia) ltac:(lia)); lra).
      rewrite (ind_degenerate0 b x J) by (auto; lia).
      destruct (Nat.eqb_spec i J) as [->|]; [|reflexivity].
      destruct HA as (_ & _ & ? & _). lra.
  - simpl basis_row. unfold next_row.
    rewrite nth_map_seq by lia. simpl NB.
    assert (P : forall p, (p + d + 1 < length (knots b))%nat ->
        kn b (p + S d) - kn b p <> 0 ->
        nth p (basis_row b x d) 0 = NB d (kn b) J x p).
    { intros p Hp Hb. destruct d as [|d'].
      - rewrite R0 by lia. simpl NB. apply ind_active; auto; [lia|].
        pose proof (mono p (p+1)%nat ltac:(lia) ltac:(lia)).
        replace (p + 1)%nat with (p + 1)%nat in * by lia. lra.
      - apply IH; lia. }
    destruct (Reqb (kn b (i + S d) - kn b i) 0) eqn:E1;
    destruct (Reqb (kn b (i + S d + 1) - kn b (i + 1)) 0) eqn:E2;
    try apply Reqb_false in E1; try apply Reqb_false in E2.
    + ring.
    + rewrite (P (i + 1)%nat) by (try lia; replace (i + 1 + S d)%nat with (i + S d + 1)%nat by lia; exact E2).
      ring.
    + rewrite (P i) by (auto; lia). ring.
    + rewrite (P i) by (auto; lia).
      rewrite (P (i + 1)%nat) by (try lia; replace (i + 1 + S d)%nat with (i + S d + 1)%nat by lia; exact E2).
      ring.
Qed.

Lemma active_pos : forall b x J, nondecreasing (knots b) -> active b x J ->
  actpos (degree b) (kn b) J.
Proof.
  intros b x J Hs (H1 & H2 & H3 & _) i j Hi Hj Hij Hjj.
  assert (kn b i <= kn b J) by (apply Hs; lia).
  assert (kn b (J + 1) <= kn b j) by (apply Hs; lia). lra.
Qed.

Lemma good_of_actpos : forall d k a, actpos d k (a + d) -> good d (shn a k).
Proof. intros d k a H i j Hi Hj. rewrite !shn_spec. apply H; lia. Qed.

Definition cf (s : bspline) (i : nat) : R := nth i (coeffs s) 0.

Theorem call_diag : forall s x J, nondecreasing (knots (sbasis s)) -> sized s ->
  active (sbasis s) x J ->
  call s x = diag (degree (sbasis s)) (shn (J - degree (sbasis s)) (kn (sbasis s)))
                  (shn (J - degree (sbasis s)) (cf s)) x.
Proof.
  intros s x J Hs Hsz HA. set (b := sbasis s) in *. set (D := degree b).
  pose proof (active_pos _ _ _ Hs HA) as AP.
  destruct HA as (H1 & H2 & H3 & H4).
  assert (HA : active b x J) by (repeat split; auto).
  unfold call. fold b. rewrite dot_rsum.
  2:{ unfold eval_basis. rewrite basis_row_length. symmetry. exact Hsz. }
  unfold eval_basis at 1. rewrite basis_row_length. fold D.
  fold D in H1, H2, AP.
  assert (AP' : actpos D (kn b) ((J - D) + D)) by (replace (J - D + D)%nat with J by lia; exact AP).
  rewrite <- (NB_diag D (kn b) (cf s) (J - D) x (length (knots b) - D - 1) AP') by lia.
  replace (J - D + D)%nat with J by (fold D in H1; lia).
  apply rsum_ext. intros i Hi. unfold eval_basis. fold D.
  rewrite (basis_row_NB b x J) by (auto; fold D; lia).
  unfold cf. ring.
Qed.

(** existence of an active interval *)
Lemma active_exists : forall b x, well_formed b -> in_domain b x -> exists J, active b x J.
Proof.
  intros b x [Hs Hl] HD.
  assert (mono : forall p q, (p <= q)%nat -> (q < length (knots b))%nat -> kn b p <= kn b q)
    by (intros; apply Hs; auto).
  destruct HD as [[H1 H2]|[H1 [H2 H3]]].
  - unfold dom_left, dom_right in *.
    fold (kn b (degree b)) in H1. fold (kn b (length (knots b) - degree b - 1)) in H2.
    assert (G : forall n, (degree b + n <= length (knots b) - degree b - 1)%nat ->
       x <= kn b (degree b + n) -> exists J, active b x J).
    { induction n as [|n IH]; intros Hn Hx.
      - rewrite Nat.add_0_r in Hx. lra.
      - destruct (Rle_dec x (kn b (degree b + n))) as [Hle|Hgt].
        + apply IH; [lia|exact Hle].
        + exists (degree b + n)%nat. repeat split; try lia.
          * replace (degree b + n + 1)%nat with (degree b + S n)%nat by lia. lra.
          * left. replace (degree b + n + 1)%nat with (degree b + S n)%nat by lia. lra. }
    apply (G (length (knots b) - degree b - 1 - degree b)%nat); [lia|].
    replace (degree b + (length (knots b) - degree b - 1 - degree b))%nat
      with (length (knots b) - degree b - 1)%nat by lia. exact H2.
  - exists (degree b). unfold dom_left in *. fold (kn b 0) in H1.
    fold (kn b (degree b)) in H2, H3. fold (kn b (degree b + 1)) in H3.
    repeat split; try lia; try lra.
    right. repeat split; lra.
Qed.

(** ** consequences *)
Theorem call_hull : forall s x lo hi, well_formed (sbasis s) -> sized s ->
  in_domain (sbasis s) x -> (forall c, In c (coeffs s) -> lo <= c <= hi) ->
  lo <= call s x <= hi.
Proof.
  intros s x lo hi WF Hsz HD Hc.
  destruct (active_exists _ _ WF HD) as [J HA].
  destruct WF as [Hs Hl].
  rewrite (call_diag s x J Hs Hsz HA).
  pose proof (active_pos _ _ _ Hs HA) as AP.
  destruct HA as (H1 & H2 & H3 & H4).
  set (b := sbasis s) in *. set (D := degree b) in *.
  assert (mono : forall p q, (p <= q)%nat -> (q < length (knots b))%nat -> kn b p <= kn b q)
    by (intros; apply Hs; auto).
  assert (X : kn b J <= x <= kn b (J + 1)) by (destruct H4 as [[? ?]|[? ?]]; lra).
  apply diag_hull.
  - apply good_of_actpos. replace (J - D + D)%nat with J by lia. exact AP.
  - intros i Hi. rewrite shn_spec. pose proof (mono (J - D + i)%nat J ltac:(lia) ltac:(lia)). lra.
  - intros i Hi. rewrite shn_spec.
    pose proof (mono (J + 1)%nat (J - D + i)%nat ltac:(lia) ltac:(lia)). lra.
  - intros i Hi. rewrite shn_spec. apply Hc. apply nth_In.
    unfold sized in Hsz. fold b in Hsz. fold D in Hsz. lia.
Qed.

Lemma call_lin : forall b c1 c2 a e x, length c1 = length c2 ->
  length c1 = (length (knots b) - degree b - 1)%nat ->
  call (mkS b (map (fun p => a * fst p + e * snd p) (combine c1 c2))) x
  = a * call (mkS b c1) x + e * call (mkS b c2) x.
Proof.
  intros b c1 c2 a e x H1 H2. unfold call. simpl sbasis. simpl coeffs.
  assert (L : length (eval_basis b x) = length c1)
    by (unfold eval_basis; rewrite basis_row_length; lia).
  revert c2 H1 L. clear H2. generalize (eval_basis b x) as u.
  induction c1 as [|p c1 IH]; intros u [|q c2] H1 L; try discriminate; destruct u as [|w u]; try discriminate.
  - simpl. ring.
  - simpl. simpl in IH. rewrite (IH u c2) by (simpl in *; lia). ring.
Qed.

Lemma eval_basis_length : forall b x, length (eval_basis b x) = (length (knots b) - degree b - 1)%nat.
Proof. intros. apply basis_row_length. Qed.

Lemma dot_repeat1 : forall u, dot u (repeat 1 (length u)) = total u.
Proof. induction u; simpl; [reflexivity|]. unfold total in *. simpl. rewrite IHu. ring. Qed.

Definition unitv (n i : nat) : list R := map (fun j => if (j =? i)%nat then 1 else 0) (seq 0 n).

Lemma dot_unitv : forall u i, (i < length u)%nat -> dot u (unitv (length u) i) = nth i u 0.
Proof.
  intros u i H. unfold unitv. rewrite dot_rsum by (rewrite map_length, seq_length; reflexivity).
  rewrite (rsum_ext _ _ (fun j => nth j u 0 * (if (j =? i)%nat then 1 else 0))).
  - apply rsum_delta. exact H.
  - intros j Hj. rewrite nth_map_seq by exact Hj. reflexivity.
Qed.

Theorem partition_of_unity : forall b x, well_formed b -> in_domain b x ->
  total (eval_basis b x) = 1.
Proof.
  intros b x WF HD.
  rewrite <- dot_repeat1.
  change (dot (eval_basis b x) (repeat 1 (length (eval_basis b x))))
    with (call (mkS b (repeat 1 (length (eval_basis b x)))) x).
  assert (1 <= call (mkS b (repeat 1 (length (eval_basis b x)))) x <= 1); [|lra].
  apply call_hull; simpl; auto.
  - unfold sized. simpl. rewrite repeat_length. apply eval_basis_length.
  - intros c Hc. apply repeat_spec in Hc. lra.
Qed.

Theorem basis_nonneg : forall b x v, well_formed b -> in_domain b x ->
  In v (eval_basis b x) -> 0 <= v <= 1.
Proof.
  intros b x v WF HD Hv.
  destruct (In_nth _ _ 0 Hv) as (i & Hi & <-).
  rewrite <- (dot_unitv _ _ Hi).
  change (dot (eval_basis b x) (unitv (length (eval_basis b x)) i))
    with (call (mkS b (unitv (length (eval_basis b x)) i)) x).
  apply call_hull; simpl; auto.
  - unfold sized, unitv. simpl. rewrite map_length, seq_length. apply eval_basis_length.
  - intros c Hc. apply in_map_iff in Hc. destruct Hc as (j & <- & _).
    destruct (j =? i)%nat; lra.
Qed.

Lemma basis_row_outside : forall b x, nondecreasing (knots b) -> forall d i,
  (i + d + 1 < length (knots b))%nat ->
  (x < kn b i \/ kn b (i + d + 1) < x) -> nth i (basis_row b x d) 0 = 0.
Proof.
  intros b x Hs.
  assert (mono : forall p q, (p <= q)%nat -> (q < length (knots b))%nat -> kn b p <= kn b q)
    by (intros; apply Hs; auto).
  induction d as [|d IH]; intros i Hi Hx.
  - simpl. rewrite nth_map_seq by lia. unfold ind. replace (i + 0 + 1)%nat with (i + 1)%nat in Hx by lia.
    assert (E1 : Rleb (kn b i) x && Rleb x (kn b (i + 1)) = false).
    { apply andb_false_iff. destruct Hx; [left|right]; apply Rleb_false; lra. }
    assert (E2 : Rltb (kn b i) x && Rleb x (kn b (i + 1)) = false).
    { apply andb_false_iff. destruct Hx; [left; apply Rltb_false|right; apply Rleb_false]; lra. }
    rewrite E1, E2. destruct ((i <? degree b + 1)%nat && Reqb (kn b 0) (kn b i)); unfold b2R; ring.
  - simpl basis_row. unfold next_row. rewrite nth_map_seq by lia.
    assert (A1 : nth i (basis_row b x d) 0 = 0).
    { apply IH; [lia|]. destruct Hx; [left; auto|right].
      pose proof (mono (i + d + 1)%nat (i + S d + 1)%nat ltac:(lia) ltac:(lia)). lra. }
    assert (A2 : nth (i + 1) (basis_row b x d) 0 = 0).
    { apply IH; [lia|]. destruct Hx; [left|right].
      - pose proof (mono i (i + 1)%nat ltac:(lia) ltac:(lia)). lra.
      - replace (i + 1 + d + 1)%nat with (i + S d + 1)%nat by lia. lra. }
    rewrite A1, A2.
    destruct (Reqb _ 0); destruct (Reqb _ 0); unfold Rdiv; ring.
Qed.

Theorem local_support : forall b x i, nondecreasing (knots b) ->
  (i + degree b + 1 < length (knots b))%nat ->
  (x < nth i (knots b) 0 \/ nth (i + degree b + 1) (knots b) 0 < x) ->
  nth i (eval_basis b x) 0 = 0.
Proof. intros. apply basis_row_outside; auto. Qed.

(** outside of all knots a spline evaluates to zero *)
Theorem call_outside : forall s x, nondecreasing (knots (sbasis s)) -> sized s ->
  (x < nth 0 (knots (sbasis s)) 0 \/
   nth (length (knots (sbasis s)) - 1) (knots (sbasis s)) 0 < x) ->
  call s x = 0.
Proof.
  intros s x Hs Hsz Hx. unfold call.
  rewrite dot_rsum by (rewrite eval_basis_length; symmetry; exact Hsz).
  rewrite eval_basis_length.
  apply rsum_0. intros i Hi. rewrite local_support; auto; [ring|lia|].
  destruct Hx as [Hx|Hx]; [left|right].
  - pose proof (Hs 0%nat i ltac:(lia) ltac:(lia)). lra.
  - pose proof (Hs (i + degree (sbasis s) + 1)%nat (length (knots (sbasis s)) - 1)%nat ltac:(lia) ltac:(lia)). lra.
Qed.

(** evalspline computes the same number as __call__ *)
Lemma fold_left_rsum : forall (f : nat -> R) n, fold_left (fun r l => r + f l) (seq 0 n) 0 = rsum n f.
Proof.
  intros f n. induction n; [reflexivity|].
  rewrite seq_S, fold_left_app. simpl. rewrite IHn. reflexivity.
Qed.

Theorem evalspline_call : forall s x, sized s -> evalspline s x = call s x.
Proof.
  intros s x Hsz. unfold evalspline, call.
  rewrite dot_rsum by (rewrite eval_basis_length; symmetry; exact Hsz).
  rewrite eval_basis_length, (fold_left_rsum (fun l => nth l (coeffs s) 0 * nth l (eval_basis (sbasis s) x) 0)).
  apply rsum_ext. intros; ring.
Qed.

(** arithmetic *)
Theorem add_same_call : forall s1 s2 x, sbasis s1 = sbasis s2 -> sized s1 -> sized s2 ->
  call (add_same s1 s2) x = call s1 x + call s2 x.
Proof.
  intros [b c1] [b2 c2] x E H1 H2. simpl in E. subst b2. unfold sized in *. simpl in *.
  unfold add_same. simpl.
  rewrite <- (Rmult_1_l (call (mkS b c1) x)), <- (Rmult_1_l (call (mkS b c2) x)).
  rewrite <- call_lin by lia. f_equal. f_equal. apply map_ext. intros; ring.
Qed.

Lemma dot_scal : forall u v a, dot u (map (fun c => a * c) v) = a * dot u v.
Proof.
  induction u as [|p u IH]; intros [|q v] a; simpl; try ring. rewrite IH. ring.
Qed.

Theorem mul_num_call : forall s a x, call (mul_num s a) x = a * call s x.
Proof. intros. unfold call, mul_num. simpl. apply dot_scal. Qed.

Theorem neg_call : forall s x, call (neg s) x = - call s x.
Proof.
  intros. unfold call, neg. simpl.
  rewrite (map_ext Ropp (fun c => -1 * c)) by (intros; ring). rewrite dot_scal. ring.
Qed.

Theorem sub_same_call : forall s1 s2 x, sbasis s1 = sbasis s2 -> sized s1 -> sized s2 ->
  call (sub_same s1 s2) x = call s1 x - call s2 x.
Proof.
  intros s1 s2 x E H1 H2. unfold sub_same. rewrite add_same_call.
  - rewrite neg_call. ring.
  - exact E.
  - exact H1.
  - unfold sized, neg in *. simpl. rewrite map_length. exact H2.
Qed.

Lemma dot_add_const : forall u v a, length u = length v ->
  dot u (map (fun c => c + a) v) = dot u v + a * total u.
Proof.
  induction u as [|p u IH]; intros [|q v] a H; try discriminate; simpl; unfold total in *; simpl; [ring|].
  rewrite IH by (simpl in H; lia). ring.
Qed.

Theorem add_num_call : forall s a x, well_formed (sbasis s) -> sized s -> in_domain (sbasis s) x ->
  call (add_num s a) x = call s x + a.
Proof.
  intros s a x WF Hsz HD. unfold call, add_num. simpl.
  rewrite dot_add_const by (rewrite eval_basis_length; symmetry; exact Hsz).
  rewrite partition_of_unity by auto. ring.
Qed.
