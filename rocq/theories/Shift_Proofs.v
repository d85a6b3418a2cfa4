(** The matrix of shiftfirstknot_T: its rows are values of the polar form of
    the first piece of the spline. *)
From Coq Require Import Reals Lra Lia List Permutation Arith Bool.
From Verif Require Import Blossom Spline_Model Spline_Spec Spline_Proofs Spline_Proofs2 Span_Proofs
  Splop_Model Shift_Model Shift_Spec.
Import ListNotations.
Local Open Scope R_scope.

(** ** sums *)
Lemma fold_map_acc : forall (f : nat -> R) l a,
  fold_left Rplus (map f l) a = fold_left (fun r i => r + f i) l a.
Proof. induction l as [|i l IH]; intros a; simpl; [reflexivity|apply IH]. Qed.

Lemma rangesum_0 : forall n f, rangesum 0 n f = rsum n f.
Proof. intros. unfold rangesum. rewrite fold_map_acc. apply fold_left_rsum. Qed.

Lemma rangesum_shift : forall a n f, rangesum a n f = rsum n (fun i => f (a + i)%nat).
Proof.
  intros. unfold rangesum. rewrite <- rangesum_0. unfold rangesum.
  f_equal. replace a with (0 + a)%nat at 1 by lia. generalize 0%nat.
  induction n as [|n IH]; intros k; simpl; [reflexivity|]. f_equal; [f_equal; lia|].
  apply (IH (S k)).
Qed.

Lemma rsum_swap : forall n m (f : nat -> nat -> R),
  rsum n (fun i => rsum m (fun j => f i j)) = rsum m (fun j => rsum n (fun i => f i j)).
Proof.
  induction n as [|n IH]; intros m f; simpl.
  - symmetry. apply rsum_0. reflexivity.
  - rewrite IH, <- rsum_add. reflexivity.
Qed.

Lemma rsum_pick : forall n a f, (a < n)%nat -> (forall i, (i < n)%nat -> i <> a -> f i = 0) ->
  rsum n f = f a.
Proof.
  intros n a f H Z. rewrite (rsum_ext n f (fun i => f i * (if (i =? a)%nat then 1 else 0))).
  - apply rsum_delta. exact H.
  - intros i Hi. destruct (Nat.eqb_spec i a) as [->|N]; [ring|]. rewrite (Z i Hi N). ring.
Qed.

Lemma rsum_pick2 : forall n a f, (S a < n)%nat ->
  (forall i, (i < n)%nat -> i <> a -> i <> S a -> f i = 0) -> rsum n f = f a + f (S a).
Proof.
  intros n a f H Z.
  rewrite (rsum_ext n f (fun i => f i * (if (i =? a)%nat then 1 else 0)
                                 + f i * (if (i =? S a)%nat then 1 else 0))).
  - rewrite rsum_add. rewrite !rsum_delta by lia. reflexivity.
  - intros i Hi. destruct (Nat.eqb_spec i a) as [->|N].
    + destruct (Nat.eqb_spec a (S a)); [lia|ring].
    + destruct (Nat.eqb_spec i (S a)) as [->|N2]; [ring|]. rewrite (Z i Hi N N2). ring.
Qed.

(** ** the rows of the product, applied to coefficients *)
Definition V (b : bbasis) (t : R) (n : nat) (c : nat -> R) (j : nat) : R :=
  rsum (degree b + 1) (fun l => shift_stages b t n j l * c l).

Lemma V_0 : forall b t c j, (j <= degree b)%nat -> V b t 0 c j = c j.
Proof.
  intros b t c j H. unfold V. rewrite (rsum_pick _ j); [simpl; unfold eye; rewrite Nat.eqb_refl; ring|lia|].
  intros i Hi N. simpl. unfold eye. destruct (Nat.eqb_spec j i); [lia|ring].
Qed.

Lemma V_S : forall b t k c j,
  V b t (S k) c j = rsum (degree b + 1 + k) (fun q => shift_stage b t k j q * V b t k c q).
Proof.
  intros. unfold V. simpl shift_stages. unfold mmul.
  rewrite (rsum_ext _ _ (fun l => rsum (degree b + 1 + k)
     (fun q => shift_stage b t k j q * (shift_stages b t k q l * c l)))).
  - rewrite rsum_swap. apply rsum_ext. intros q Hq. rewrite rsum_scal. reflexivity.
  - intros l Hl. rewrite rangesum_0. rewrite Rmult_comm, <- rsum_scal.
    apply rsum_ext. intros q Hq. ring.
Qed.

Lemma V_copy : forall b t k c j, (degree b + 1 <= j <= degree b + 1 + k)%nat ->
  V b t (S k) c j = V b t k c (j - 1).
Proof.
  intros b t k c j H. rewrite V_S. unfold shift_stage.
  rewrite (proj2 (Nat.leb_le _ _)) by lia.
  rewrite (rsum_pick _ (j - 1)).
  - rewrite Nat.eqb_refl. ring.
  - lia.
  - intros i Hi N. destruct (Nat.eqb_spec i (j - 1)); [lia|ring].
Qed.

Lemma V_mix : forall b t k c j, (k < j <= degree b)%nat ->
  V b t (S k) c j
  = (kn b (j + degree b - k) - t) / (kn b (j + degree b - k) - kn b j) * V b t k c (j - 1)
  + (t - kn b j) / (kn b (j + degree b - k) - kn b j) * V b t k c j.
Proof.
  intros b t k c j H. rewrite V_S. unfold shift_stage.
  rewrite (proj2 (Nat.leb_gt _ _)) by lia. rewrite (proj2 (Nat.leb_gt _ _)) by lia.
  rewrite (rsum_pick2 _ (j - 1)).
  - rewrite Nat.eqb_refl. replace (S (j - 1)) with j by lia.
    replace (j =? j - 1)%nat with false by (symmetry; apply Nat.eqb_neq; lia).
    rewrite Nat.eqb_refl. reflexivity.
  - lia.
  - intros i Hi N1 N2. destruct (Nat.eqb_spec i (j - 1)); [lia|].
    destruct (Nat.eqb_spec i j); [lia|ring].
Qed.

Lemma V_down : forall b t c i n, V b t (n + i) c (degree b + i) = V b t n c (degree b).
Proof.
  induction i as [|i IH]; intros n; [rewrite !Nat.add_0_r; reflexivity|].
  replace (n + S i)%nat with (S (n + i)) by lia. rewrite V_copy by lia.
  replace (degree b + S i - 1)%nat with (degree b + i)%nat by lia. apply IH.
Qed.

(** the polar form of the first piece *)
Definition fp (b : bbasis) (c : nat -> R) : list R -> R := piece (degree b) (kn b) c (degree b).

Lemma V_polar : forall b t c, nondecreasing (knots b) -> actint b (degree b) ->
  forall n j, (n <= j <= degree b)%nat ->
  V b t n c j = fp b c (map (kn b) (seq (S j) (degree b - n)) ++ repeat t n).
Proof.
  intros b t c ND A. pose proof (actint_pos b _ ND A) as AP.
  pose proof (piece_symaff (degree b) (kn b) c (degree b) (le_n _) AP) as SA.
  induction n as [|k IH]; intros j H.
  - rewrite V_0 by lia. simpl. rewrite app_nil_r, Nat.sub_0_r. unfold fp.
    rewrite piece_dual; auto; lia.
  - rewrite V_mix by lia. rewrite !IH by lia.
    remember (degree b - S k)%nat as e. replace (degree b - k)%nat with (S e) by lia.
    replace (S (j - 1)) with j by lia.
    set (rest := map (kn b) (seq (S j) e) ++ repeat t k).
    assert (L : length rest = (degree b - 1)%nat).
    { unfold rest. rewrite app_length, map_length, seq_length, repeat_length. lia. }
    assert (E1 : fp b c (map (kn b) (seq j (S e)) ++ repeat t k) = fp b c (kn b j :: rest)) by reflexivity.
    assert (E2 : fp b c (map (kn b) (seq (S j) (S e)) ++ repeat t k)
                 = fp b c (kn b (j + degree b - k) :: rest)).
    { unfold fp. apply (sa_perm _ _ SA).
      - rewrite app_length, map_length, seq_length, repeat_length. lia.
      - unfold rest. rewrite app_comm_cons. apply Permutation_app_tail.
        replace (j + degree b - k)%nat with (S j + e)%nat by lia. apply seq_rot. }
    assert (E3 : fp b c (map (kn b) (seq (S j) e) ++ repeat t (S k)) = fp b c (t :: rest)).
    { unfold fp. apply (sa_perm _ _ SA).
      - rewrite app_length, map_length, seq_length, repeat_length. lia.
      - unfold rest. simpl. symmetry. apply Permutation_middle. }
    rewrite E1, E2, E3.
    assert (P : kn b j < kn b (j + degree b - k)) by (apply AP; lia).
    set (w := (t - kn b j) / (kn b (j + degree b - k) - kn b j)).
    replace t with ((1 - w) * kn b j + w * kn b (j + degree b - k)) at 2 by (unfold w; field; lra).
    unfold fp. rewrite (sa_aff _ _ SA) by (simpl; lia).
    replace ((kn b (j + degree b - k) - t) / (kn b (j + degree b - k) - kn b j)) with (1 - w)
      by (unfold w; field; lra). reflexivity.
Qed.

Lemma stages_value : forall b t c n i, nondecreasing (knots b) -> actint b (degree b) ->
  (i <= n)%nat -> (n <= degree b)%nat ->
  V b t (S n) c (degree b + 1 + i)
  = fp b c (map (kn b) (seq (degree b + 1) (degree b - n + i)) ++ repeat t (n - i)).
Proof.
  intros b t c n i ND A H Hn.
  replace (S n) with (n - i + S i)%nat by lia. replace (degree b + 1 + i)%nat with (degree b + S i)%nat by lia.
  rewrite V_down, V_polar by (auto; lia).
  replace (degree b + 1)%nat with (S (degree b)) by lia.
  replace (degree b - (n - i))%nat with (degree b - n + i)%nat by lia. reflexivity.
Qed.

(** ** the matrix applied to the coefficients *)
Lemma fwd_length : forall c b t, length (shift_knot1_fwd c b t) = blen b.
Proof. intros. unfold shift_knot1_fwd, mdot. rewrite map_length, seq_length. reflexivity. Qed.

Lemma rsum_more : forall n m f, (forall i, (n <= i < n + m)%nat -> f i = 0) -> rsum (n + m) f = rsum n f.
Proof.
  induction m as [|m IH]; intros f Z; [rewrite Nat.add_0_r; reflexivity|].
  rewrite Nat.add_succ_r. simpl. rewrite IH by (intros; apply Z; lia). rewrite Z by lia. ring.
Qed.

Lemma fwd_first : forall c b t i, nondecreasing (knots b) -> actint b (degree b) -> (i <= degree b)%nat ->
  nth i (shift_knot1_fwd c b t) 0
  = fp b (fun l => nth l c 0) (map (kn b) (seq (degree b + 1) i) ++ repeat t (degree b - i)).
Proof.
  intros c b t i ND A Hi. destruct A as [A1 [A2 A3]].
  unfold shift_knot1_fwd, mdot. rewrite nth_map_seq by (unfold blen; lia). rewrite rangesum_0.
  replace (blen b) with (degree b + 1 + (blen b - (degree b + 1)))%nat by (unfold blen; lia).
  rewrite rsum_more.
  - rewrite (rsum_ext _ _ (fun l => shift_stages b t (S (degree b)) (degree b + 1 + i)%nat l * nth l c 0)).
    + change (rsum (degree b + 1) (fun l => shift_stages b t (S (degree b)) (degree b + 1 + i)%nat l * nth l c 0))
        with (V b t (S (degree b)) (fun l => nth l c 0) (degree b + 1 + i)).
      rewrite stages_value; auto; [|split; [assumption|split; assumption]].
      rewrite Nat.sub_diag. reflexivity.
    + intros l Hl. unfold shiftfirstknot.
      replace (i <? degree b + 1)%nat with true by (symmetry; apply Nat.ltb_lt; lia).
      replace (l <? degree b + 1)%nat with true by (symmetry; apply Nat.ltb_lt; lia).
      simpl andb. cbv iota. replace (degree b + 1)%nat with (S (degree b)) at 1 by lia. reflexivity.
  - intros l Hl. unfold shiftfirstknot.
    replace (l <? degree b + 1)%nat with false by (symmetry; apply Nat.ltb_ge; lia).
    rewrite andb_false_r. unfold eye. destruct (Nat.eqb_spec i l); [lia|ring].
Qed.

Lemma fwd_rest : forall c b t i, (degree b < i)%nat -> (i < blen b)%nat ->
  nth i (shift_knot1_fwd c b t) 0 = nth i c 0.
Proof.
  intros c b t i H1 H2. unfold shift_knot1_fwd, mdot. rewrite nth_map_seq by exact H2. rewrite rangesum_0.
  unfold shiftfirstknot. replace (i <? degree b + 1)%nat with false by (symmetry; apply Nat.ltb_ge; lia).
  simpl andb. cbv iota.
  rewrite (rsum_pick _ i); [unfold eye; rewrite Nat.eqb_refl; ring|exact H2|].
  intros l Hl N. unfold eye. destruct (Nat.eqb_spec i l); [lia|ring].
Qed.

(** ** the basis with the first knots moved *)
Lemma moved_length : forall b t, (degree b + 1 <= length (knots b))%nat ->
  length (knots (first_moved b t)) = length (knots b).
Proof. intros. unfold first_moved. simpl. rewrite app_length, repeat_length, skipn_length. lia. Qed.

Lemma moved_kn_first : forall b t i, (i <= degree b)%nat -> kn (first_moved b t) i = t.
Proof.
  intros. unfold kn, first_moved. simpl. rewrite app_nth1 by (rewrite repeat_length; lia).
  clear -H. assert (forall n i, (i < n)%nat -> nth i (repeat t n) 0 = t) as G.
  { induction n as [|n IH]; intros [|j] Hj; simpl; auto; try lia. apply IH. lia. }
  apply G. lia.
Qed.
Lemma moved_kn_rest : forall b t i, (degree b < i)%nat -> kn (first_moved b t) i = kn b i.
Proof.
  intros. unfold kn, first_moved. simpl. rewrite app_nth2 by (rewrite repeat_length; lia).
  rewrite repeat_length, nth_skipn. f_equal. lia.
Qed.

Lemma moved_sorted : forall b t, nondecreasing (knots b) -> (2 * degree b + 2 <= length (knots b))%nat ->
  t <= kn b (degree b + 1) -> nondecreasing (knots (first_moved b t)).
Proof.
  intros b t ND LE H i j Hij Hj. rewrite moved_length in Hj by lia.
  change (kn (first_moved b t) i <= kn (first_moved b t) j).
  destruct (le_lt_dec i (degree b)) as [Hi|Hi].
  - rewrite moved_kn_first by exact Hi. destruct (le_lt_dec j (degree b)) as [Hj2|Hj2].
    + rewrite moved_kn_first by exact Hj2. lra.
    + rewrite moved_kn_rest by exact Hj2. apply Rle_trans with (kn b (degree b + 1)); [exact H|].
      unfold kn. apply ND; lia.
  - rewrite !moved_kn_rest by lia. apply ND; lia.
Qed.

Lemma joins_pieces : forall b c, nondecreasing (knots b) -> joins b (degree b) (piece (degree b) (kn b) c).
Proof.
  intros b c ND. split.
  - intros J A. apply piece_symaff; [apply A|apply actint_pos; auto].
  - intros J m t vs [A1 [A2 [Hm K]]] L. apply adjacent_pieces; auto.
    + apply A1. + apply actint_pos; auto. + apply actint_pos; auto.
Qed.

(** ** the main statement *)
Lemma first_act : forall b t, well_formed b -> in_first b t -> actint b (degree b).
Proof.
  intros b t [ND LE] [F1 F2]. split; [lia|]. split; [lia|]. unfold kn. lra.
Qed.
Lemma moved_wf : forall b t, well_formed b -> in_first b t -> well_formed (first_moved b t).
Proof.
  intros b t [ND LE] [F1 F2]. split; [apply moved_sorted; auto; unfold kn; lra|].
  rewrite moved_length by lia. exact LE.
Qed.

Section Fwd.
Variables (b : bbasis) (c : list R) (t : R).
Hypothesis W : well_formed b.
Hypothesis F : in_first b t.
Hypothesis L : length c = blen b.

Let b2 := first_moved b t.
Let s := mkS b c.
Let G := piece (degree b) (kn b) (cf s).

Lemma fwd_act : actint b (degree b).
Proof. exact (first_act b t W F). Qed.
Lemma fwd_sorted : nondecreasing (knots b2).
Proof. destruct W as [ND LE]. destruct F as [F1 F2]. apply moved_sorted; auto. unfold kn. lra. Qed.
Lemma fwd_actint : forall J, actint b2 J <-> actint b J.
Proof.
  intros J. destruct W as [ND LE]. destruct F as [F1 F2].
  unfold actint, b2. change (degree (first_moved b t)) with (degree b). rewrite moved_length by lia.
  destruct (le_lt_dec J (degree b)) as [H|H].
  - rewrite moved_kn_first by exact H. split; intros [H1 [H2 H3]].
    + assert (J = degree b) as -> by lia. split; [lia|]. split; [lia|]. unfold kn. lra.
    + assert (J = degree b) as -> by lia. split; [lia|]. split; [lia|].
      rewrite moved_kn_rest by lia. exact F2.
  - rewrite !moved_kn_rest by lia. tauto.
Qed.

Lemma fwd_joins : joins b2 (degree b2) G.
Proof.
  destruct W as [ND LE]. destruct (joins_pieces b (cf s) ND) as [J1 J2]. split.
  - intros J A. apply J1. apply fwd_actint. exact A.
  - intros J m u vs [A1 [A2 [Hm K]]] HL. apply J2; [|exact HL].
    split; [apply fwd_actint; exact A1|]. split; [apply fwd_actint; exact A2|]. split; [exact Hm|].
    intros j Hj. rewrite <- (K j Hj). symmetry. apply moved_kn_rest. destruct A1 as [A1 _].
    change (degree b2) with (degree b) in A1. lia.
Qed.

Lemma map_kn_moved : forall a n, (degree b < a)%nat -> map (kn b2) (seq a n) = map (kn b) (seq a n).
Proof.
  intros a n H. apply map_ext_in. intros i Hi. apply in_seq in Hi. apply moved_kn_rest. lia.
Qed.

Lemma fwd_cf : forall J a, actint b2 J -> (a <= J <= a + degree b)%nat ->
  nth a (shift_knot1_fwd c b t) 0 = span_cf b2 G a.
Proof.
  intros J a A Ha. destruct W as [ND LE]. destruct (le_lt_dec a (degree b)) as [H|H].
  - rewrite fwd_first by (auto; apply fwd_act).
    rewrite (span_cf_eq b2 G (degree b) a fwd_sorted fwd_joins); [| |change (degree b2) with (degree b); lia].
    + change (degree b2) with (degree b). unfold fp, G.
      apply (sa_perm (degree b)).
      * apply piece_symaff; [lia|apply actint_pos; [exact ND|apply fwd_act]].
      * rewrite app_length, map_length, seq_length, repeat_length. lia.
      * assert (E : seq (S a) (degree b) = seq (S a) (degree b - a) ++ seq (S a + (degree b - a)) a)
          by (rewrite <- seq_app; f_equal; lia). rewrite E, map_app.
        replace (S a + (degree b - a))%nat with (degree b + 1)%nat by lia. rewrite (map_kn_moved (degree b + 1)) by lia.
        rewrite (map_const_repeat (kn b2) t (degree b - a) (S a)) by (intros; apply moved_kn_first; lia).
        apply Permutation_app_comm.
    + apply fwd_actint. apply fwd_act.
  - destruct (proj1 (fwd_actint J) A) as [A1 [A2 A3]].
    rewrite fwd_rest by (unfold blen; lia).
    rewrite (span_cf_eq b2 G J a fwd_sorted fwd_joins); auto.
    change (degree b2) with (degree b). rewrite map_kn_moved by lia. unfold G.
    rewrite piece_dual; [reflexivity|lia| |lia]. apply actint_pos; [exact ND|].
    split; [assumption|split; assumption].
Qed.

Theorem fwd_call : forall x, in_domain b x -> t <= x ->
  call (mkS b2 (shift_knot1_fwd c b t)) x = call s x.
Proof.
  intros x D Hx. destruct W as [ND LE].
  destruct (active_exists b x W D) as [J A].
  assert (A2 : active b2 x J).
  { destruct A as [A1 [A2 [A3 A4]]]. unfold active.
    change (degree b2) with (degree b). unfold b2. rewrite moved_length by lia.
    split; [exact A1|]. split; [exact A2|].
    destruct (le_lt_dec J (degree b)) as [H|H].
    - assert (J = degree b) as -> by lia. rewrite !moved_kn_first by lia. rewrite !moved_kn_rest by lia.
      destruct F as [F1 F2]. split; [exact F2|].
      destruct (Rle_lt_or_eq_dec t x Hx) as [T|T]; [left; split; [exact T|]|right].
      + destruct A4 as [A4|[-> A5]]; lra.
      + split; [symmetry; exact T|]. split; [apply moved_kn_first; lia|reflexivity].
    - rewrite !moved_kn_rest by lia. split; [exact A3|]. left.
      destruct A4 as [A4|[A4 [A5 A6]]]; [exact A4|lia]. }
  assert (SZ : sized s) by exact L.
  rewrite (call_piece s x J ND SZ A).
  rewrite (call_piece (mkS b2 (shift_knot1_fwd c b t)) x J fwd_sorted); [| |exact A2].
  - cbn [sbasis]. change (degree b2) with (degree b).
    transitivity (piece (degree b) (kn b2) (cf (mkS b2 (span_coeffs b2 G))) J (repeat x (degree b))).
    + apply piece_ext; [apply repeat_length|apply A| |reflexivity].
      intros a Ha. unfold cf, span_coeffs. cbn [coeffs]. 
      rewrite nth_map_seq.
      * apply (fwd_cf J); [apply (actint_active b2 x); exact A2|lia].
      * destruct A2 as [Q1 [Q2 _]]. unfold blen. lia.
    + apply (span_piece b2 G J); [apply fwd_sorted|apply fwd_joins|apply (actint_active b2 x); exact A2|].
      apply repeat_length.
  - unfold sized. cbn [coeffs sbasis]. rewrite fwd_length. unfold blen, b2. rewrite moved_length by lia. reflexivity.
Qed.
End Fwd.
