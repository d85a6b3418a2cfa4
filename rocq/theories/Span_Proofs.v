(** Which functions a B-spline basis can represent: a family of symmetric
    multi-affine forms, one per knot interval, that agree across the knots as
    often as the multiplicities allow.  Pure mathematics for the proofs of the
    spline sum, product, transformation and concatenation; no model code. *)
From Coq Require Import Reals Lra Lia List Permutation Arith.
From Verif Require Import Blossom Spline_Model Spline_Spec Spline_Proofs Spline_Proofs2.
Import ListNotations.
Local Open Scope R_scope.

(** knot interval number J is non-degenerate and inside the domain *)
Definition actint (b : bbasis) (J : nat) : Prop :=
  (degree b <= J)%nat /\ (J + degree b + 1 < length (knots b))%nat /\ kn b J < kn b (J + 1).

(** J and J+m are consecutive non-degenerate intervals, separated by the
    m-fold knot t *)
Definition neighbours (b : bbasis) (J m : nat) (t : R) : Prop :=
  actint b J /\ actint b (J + m) /\ (1 <= m)%nat /\
  forall j, (J < j <= J + m)%nat -> kn b j = t.

Lemma actint_pos : forall b J, nondecreasing (knots b) -> actint b J -> actpos (degree b) (kn b) J.
Proof.
  intros b J ND [A [B C]]. apply (active_pos b (kn b (J + 1)) J ND).
  apply active_inside; auto. lra.
Qed.

Lemma actint_active : forall b x J, active b x J -> actint b J.
Proof. intros b x J [A [B [C D]]]. split; [exact A|]. split; assumption. Qed.

(** forms of degree e for every interval, agreeing across neighbours *)
Definition joins (b : bbasis) (e : nat) (F : nat -> list R -> R) : Prop :=
  (forall J, actint b J -> symaff e (F J)) /\
  (forall J m t vs, neighbours b J m t -> (m + length vs = e)%nat ->
     F J (repeat t m ++ vs) = F (J + m)%nat (repeat t m ++ vs)).

Lemma joins_chain : forall b F a n J, nondecreasing (knots b) -> joins b (degree b) F ->
  actint b J -> actint b (J + n) -> (a <= J)%nat -> (J + n <= a + degree b)%nat ->
  F J (map (kn b) (seq (S a) (degree b))) = F (J + n)%nat (map (kn b) (seq (S a) (degree b))).
Proof.
  intros b F a n. induction n as [n IH] using lt_wf_ind. intros J ND JF A1 A2 Ha Hn.
  destruct (Nat.eq_dec n 0) as [->|Hn0]; [rewrite Nat.add_0_r; reflexivity|].
  destruct A1 as [B1 [B2 B3]]. destruct A2 as [C1 [C2 C3]].
  destruct (next_interval b J (kn b (J + 1)) ND B1 eq_refl) as [m [M1 [M2 [M3 M4]]]]; auto.
  { unfold dom_right. apply Rle_lt_trans with (kn b (J + n)).
    - unfold kn. apply ND; lia.
    - apply Rlt_le_trans with (kn b (J + n + 1)); [exact C3|]. unfold kn. apply ND; lia. }
  assert (Hmn : (m <= n)%nat).
  { destruct (le_lt_dec m n); [assumption|]. exfalso.
    rewrite (M3 (J + n)%nat) in C3 by lia. rewrite (M3 (J + n + 1)%nat) in C3 by lia. lra. }
  assert (AM : actint b (J + m)).
  { split; [lia|]. split; [lia|]. rewrite (M3 (J + m)%nat) by lia. exact M4. }
  transitivity (F (J + m)%nat (map (kn b) (seq (S a) (degree b)))).
  - set (p := (J - a)%nat). set (q := (degree b - p - m)%nat).
    assert (E : Permutation (map (kn b) (seq (S a) (degree b)))
      (repeat (kn b (J + 1)) m ++ (map (kn b) (seq (S a) p) ++ map (kn b) (seq (S J + m) q)))).
    { replace (degree b) with (p + (m + q))%nat by (unfold q, p; lia).
      rewrite !seq_app, !map_app. replace (S a + p)%nat with (S J) by (unfold p; lia).
      rewrite (map_const_repeat (kn b) (kn b (J + 1)) m (S J)) by (intros; apply M3; lia).
      rewrite !app_assoc. apply Permutation_app_tail. apply Permutation_app_comm. }
    destruct JF as [SA AG].
    rewrite (sa_perm _ _ (SA J (conj B1 (conj B2 B3))) _ _ (eq_trans (map_length _ _) (seq_length _ _)) E).
    rewrite (sa_perm _ _ (SA (J + m)%nat AM) _ _ (eq_trans (map_length _ _) (seq_length _ _)) E).
    apply AG.
    + split; [split; [exact B1|split; assumption]|]. split; [exact AM|]. split; [exact M2|exact M3].
    + rewrite app_length, !map_length, !seq_length. unfold q, p. lia.
  - replace (J + n)%nat with (J + m + (n - m))%nat by lia. apply IH; auto; try lia.
    replace (J + m + (n - m))%nat with (J + n)%nat by lia. split; [assumption|]. split; assumption.
Qed.

(** a non-degenerate interval in the support of basis function a, if any *)
Definition supint (b : bbasis) (a : nat) : nat :=
  match find (fun J => (degree b <=? J)%nat && (J + degree b + 1 <? length (knots b))%nat &&
                       Rltb (kn b J) (kn b (J + 1)))%bool (seq a (degree b + 1)) with
  | Some J => J | None => 0%nat end.

Lemma supint_spec : forall b a J, actint b J -> (a <= J <= a + degree b)%nat ->
  actint b (supint b a) /\ (a <= supint b a <= a + degree b)%nat.
Proof.
  intros b a J [A [B C]] HJ. unfold supint.
  destruct (find _ _) as [K|] eqn:E.
  - apply find_some in E. destruct E as [I T]. apply in_seq in I.
    apply Bool.andb_true_iff in T. destruct T as [T T3]. apply Bool.andb_true_iff in T. destruct T as [T1 T2].
    apply Nat.leb_le in T1. apply Nat.ltb_lt in T2. apply Rltb_true in T3.
    split; [split; [assumption|split; assumption]|lia].
  - exfalso. pose proof (find_none _ _ E J) as N. cbv beta in N.
    rewrite (proj2 (Nat.leb_le _ _) A), (proj2 (Nat.ltb_lt _ _) B), (proj2 (Rltb_true _ _) C) in N.
    simpl in N. discriminate N. apply in_seq. lia.
Qed.

Definition span_cf (b : bbasis) (F : nat -> list R -> R) (a : nat) : R :=
  F (supint b a) (map (kn b) (seq (S a) (degree b))).

Definition span_coeffs (b : bbasis) (F : nat -> list R -> R) : list R :=
  map (span_cf b F) (seq 0 (blen b)).

Lemma span_cf_eq : forall b F J a, nondecreasing (knots b) -> joins b (degree b) F ->
  actint b J -> (a <= J <= a + degree b)%nat ->
  span_cf b F a = F J (map (kn b) (seq (S a) (degree b))).
Proof.
  intros b F J a ND JF A Ha. unfold span_cf.
  destruct (supint_spec b a J A Ha) as [A' Ha'].
  set (K := supint b a) in *. destruct (le_lt_dec K J) as [L|L].
  - replace J with (K + (J - K))%nat in * by lia.
    apply joins_chain; auto; try lia.
  - symmetry. replace K with (J + (K - J))%nat in * by lia.
    apply joins_chain; auto; try lia.
Qed.

Lemma span_piece : forall b F J us, nondecreasing (knots b) -> joins b (degree b) F ->
  actint b J -> length us = degree b ->
  piece (degree b) (kn b) (cf (mkS b (span_coeffs b F))) J us = F J us.
Proof.
  intros b F J us ND JF A L.
  rewrite <- (piece_reconstruct (degree b) (kn b) J (F J) us); auto.
  - apply piece_ext; auto.
    + apply A.
    + intros a Ha. unfold cf, span_coeffs. simpl coeffs.
      destruct A as [A1 [A2 A3]].
      rewrite nth_map_seq by (unfold blen; lia).
      apply span_cf_eq; auto; [|lia]. split; [assumption|split; assumption].
  - apply A.
  - apply actint_pos; auto.
  - apply JF; auto.
Qed.

Lemma span_sized : forall b F, sized (mkS b (span_coeffs b F)).
Proof. intros. unfold sized, span_coeffs. simpl. rewrite map_length, seq_length. reflexivity. Qed.

(** the span lemma *)
Theorem span_call : forall b F x J, nondecreasing (knots b) -> joins b (degree b) F ->
  active b x J ->
  call (mkS b (span_coeffs b F)) x = F J (repeat x (degree b)).
Proof.
  intros b F x J ND JF A.
  rewrite (call_piece (mkS b (span_coeffs b F)) x J ND (span_sized b F) A). simpl sbasis.
  apply span_piece; auto.
  - apply (actint_active b x); exact A.
  - apply repeat_length.
Qed.

(** families with slack r: across an m-fold knot they agree on a smaller
    multiplicity m1 with m1 + r <= m, or they are the same form *)
Definition slack (b : bbasis) (e r : nat) (F : nat -> list R -> R) : Prop :=
  (forall J, actint b J -> symaff e (F J)) /\
  (forall J m t, neighbours b J m t ->
     (forall vs, length vs = e -> F J vs = F (J + m)%nat vs) \/
     (exists m1, (m1 + r <= m)%nat /\ forall vs, (m1 + length vs = e)%nat ->
        F J (repeat t m1 ++ vs) = F (J + m)%nat (repeat t m1 ++ vs))).

Lemma slack_joins : forall b e r F, slack b e r F -> joins b e F.
Proof.
  intros b e r F [SA AG]. split; [exact SA|]. intros J m t vs NB L.
  destruct (AG J m t NB) as [H|[m1 [Hm H]]].
  - apply H. rewrite app_length, repeat_length. exact L.
  - replace m with (m1 + (m - m1))%nat at 1 3 by lia. rewrite repeat_app, <- app_assoc.
    apply H. rewrite app_length, repeat_length. lia.
Qed.

Lemma symaff_const : forall e c, symaff e (fun _ => c).
Proof. intros. split; intros; [reflexivity|ring]. Qed.

Lemma slack_const : forall b e r c, slack b e r (fun _ _ => c).
Proof. intros. split; [intros; apply symaff_const|]. intros. left. reflexivity. Qed.

Lemma joins_lin : forall b e F G a c, joins b e F -> joins b e G ->
  joins b e (fun J us => a * F J us + c * G J us).
Proof.
  intros b e F G a c [SF AF] [SG AG]. split.
  - intros J A. destruct (SF J A) as [P1 Q1]. destruct (SG J A) as [P2 Q2]. split.
    + intros us vs L P. rewrite (P1 us vs L P), (P2 us vs L P). reflexivity.
    + intros. rewrite Q1, Q2 by assumption. ring.
  - intros. rewrite (AF J m t vs), (AG J m t vs) by assumption. reflexivity.
Qed.

(** * the form of a product: all ways to give d1 arguments to f, d2 to g *)
Fixpoint pcount (d1 : nat) : nat -> R :=
  fix aux d2 := match d1, d2 with
  | O, _ => 1
  | _, O => 1
  | S d1', S d2' => pcount d1' (S d2') + aux d2'
  end.

Fixpoint psum (us : list R) (d1 d2 : nat) (f g : list R -> R) : R :=
  match d1, d2 with
  | O, _ => f [] * g us
  | _, O => f us * g []
  | S d1', S d2' =>
    match us with
    | [] => 0
    | u :: us' => psum us' d1' d2 (fun l => f (u :: l)) g + psum us' d1 d2' f (fun l => g (u :: l))
    end
  end.

Lemma pcount_0 : forall d, pcount 0 d = 1.
Proof. intros [|d]; reflexivity. Qed.
Lemma pcount_r0 : forall d, pcount d 0 = 1.
Proof. intros [|d]; reflexivity. Qed.
Lemma pcount_SS : forall d1 d2, pcount (S d1) (S d2) = pcount d1 (S d2) + pcount (S d1) d2.
Proof. reflexivity. Qed.
Lemma pcount_pos : forall d1 d2, 0 < pcount d1 d2.
Proof.
  induction d1; intros d2; [rewrite pcount_0; lra|].
  induction d2; [rewrite pcount_r0; lra|]. rewrite pcount_SS.
  specialize (IHd1 (S d2)). lra.
Qed.

Lemma psum_0 : forall us d f g, psum us 0 d f g = f [] * g us.
Proof. intros [|u us] d f g; reflexivity. Qed.
Lemma psum_r0 : forall us d f g, length us = d -> psum us d 0 f g = f us * g [].
Proof. intros [|u us] [|d] f g H; simpl in *; try reflexivity; discriminate. Qed.
Lemma psum_SS : forall u us d1 d2 f g,
  psum (u :: us) (S d1) (S d2) f g
  = psum us d1 (S d2) (fun l => f (u :: l)) g + psum us (S d1) d2 f (fun l => g (u :: l)).
Proof. reflexivity. Qed.

Lemma psum_ext : forall us d1 d2 f f' g g', length us = (d1 + d2)%nat ->
  (forall l, length l = d1 -> f l = f' l) -> (forall l, length l = d2 -> g l = g' l) ->
  psum us d1 d2 f g = psum us d1 d2 f' g'.
Proof.
  induction us as [|u us IH]; intros d1 d2 f f' g g' L Hf Hg.
  - simpl in L. destruct d1; [|discriminate]. destruct d2; [|discriminate].
    rewrite !psum_0. rewrite Hf, Hg by reflexivity. reflexivity.
  - destruct d1 as [|d1].
    + rewrite !psum_0. rewrite Hf by reflexivity. rewrite Hg by exact L. reflexivity.
    + destruct d2 as [|d2].
      * rewrite Nat.add_0_r in L. rewrite !psum_r0 by exact L. rewrite Hf by exact L.
        rewrite Hg by reflexivity. reflexivity.
      * rewrite !psum_SS. simpl in L. f_equal; apply IH; try lia; intros; auto;
          try (apply Hf; simpl; lia); try (apply Hg; simpl; lia).
Qed.

Lemma psum_lin_f : forall us d1 d2 f f' g a c, length us = (d1 + d2)%nat ->
  psum us d1 d2 (fun l => a * f l + c * f' l) g = a * psum us d1 d2 f g + c * psum us d1 d2 f' g.
Proof.
  induction us as [|u us IH]; intros d1 d2 f f' g a c L.
  - simpl in L. destruct d1; [|discriminate]. rewrite !psum_0. ring.
  - destruct d1 as [|d1]; [rewrite !psum_0; ring|].
    destruct d2 as [|d2].
    + rewrite Nat.add_0_r in L. rewrite !psum_r0 by exact L. ring.
    + rewrite !psum_SS. simpl in L.
      rewrite (IH d1 (S d2) (fun l => f (u :: l)) (fun l => f' (u :: l))) by lia.
      rewrite (IH (S d1) d2) by lia. ring.
Qed.

Lemma psum_comm : forall us d1 d2 f g, length us = (d1 + d2)%nat ->
  psum us d1 d2 f g = psum us d2 d1 g f.
Proof.
  induction us as [|u us IH]; intros d1 d2 f g L.
  - simpl in L. destruct d1; [|discriminate]. destruct d2; [|discriminate]. rewrite !psum_0. ring.
  - destruct d1 as [|d1].
    + rewrite psum_0. rewrite psum_r0 by exact L. ring.
    + destruct d2 as [|d2].
      * rewrite Nat.add_0_r in L. rewrite psum_0, psum_r0 by exact L. ring.
      * rewrite !psum_SS. simpl in L. rewrite (IH d1 (S d2)) by lia. rewrite (IH (S d1) d2) by lia. ring.
Qed.

Lemma psum_lin_g : forall us d1 d2 f g g' a c, length us = (d1 + d2)%nat ->
  psum us d1 d2 f (fun l => a * g l + c * g' l) = a * psum us d1 d2 f g + c * psum us d1 d2 f g'.
Proof.
  intros. rewrite !(psum_comm us d1 d2) by assumption. apply psum_lin_f. lia.
Qed.

Lemma psum_diag : forall d1 d2 f g x,
  psum (repeat x (d1 + d2)) d1 d2 f g = pcount d1 d2 * (f (repeat x d1) * g (repeat x d2)).
Proof.
  assert (H : forall n d1 d2 f g x, (d1 + d2 = n)%nat ->
    psum (repeat x n) d1 d2 f g = pcount d1 d2 * (f (repeat x d1) * g (repeat x d2))).
  { induction n as [|n IH]; intros d1 d2 f g x E.
    - replace d1 with 0%nat by lia. replace d2 with 0%nat by lia. simpl. ring.
    - destruct d1 as [|d1].
      + rewrite psum_0, pcount_0. simpl in E. rewrite E. simpl. ring.
      + destruct d2 as [|d2].
        * rewrite pcount_r0. rewrite psum_r0 by (rewrite repeat_length; lia).
          replace (S d1) with (S n) by lia. simpl. ring.
        * change (repeat x (S n)) with (x :: repeat x n). rewrite psum_SS, pcount_SS.
          rewrite !IH by lia. cbv beta.
          change (x :: repeat x d1) with (repeat x (S d1)). change (x :: repeat x d2) with (repeat x (S d2)). ring. }
  intros. apply H. reflexivity.
Qed.

Lemma psum_perm : forall us vs, Permutation us vs -> forall d1 d2 f g, length us = (d1 + d2)%nat ->
  symaff d1 f -> symaff d2 g -> psum us d1 d2 f g = psum vs d1 d2 f g.
Proof.
  intros us vs P. induction P as [| u us vs P IH | u v us | us vs ws P1 IH1 P2 IH2]; intros d1 d2 f g L SF SG.
  - reflexivity.
  - destruct d1 as [|d1].
    + rewrite !psum_0. rewrite (sa_perm _ _ SG (u :: us) (u :: vs)); auto.
    + destruct d2 as [|d2].
      * rewrite Nat.add_0_r in L. rewrite !psum_r0; auto.
        -- rewrite (sa_perm _ _ SF (u :: us) (u :: vs)); auto.
        -- simpl. rewrite <- (Permutation_length P). exact L.
      * rewrite !psum_SS. simpl in L. f_equal; apply IH; try lia; auto; apply symaff_cons; auto.
  - simpl in L.
    destruct d1 as [|d1].
    + rewrite !psum_0. rewrite (sa_perm _ _ SG (v :: u :: us) (u :: v :: us)); auto. apply perm_swap.
    + destruct d2 as [|d2].
      * rewrite Nat.add_0_r in L. rewrite !psum_r0 by (simpl; lia).
        rewrite (sa_perm _ _ SF (v :: u :: us) (u :: v :: us)); auto. apply perm_swap.
      * rewrite !psum_SS.
        assert (EF : forall w z l, S (S (length l)) = S d1 -> f (w :: z :: l) = f (z :: w :: l)).
        { intros. apply (sa_perm _ _ SF); [simpl; lia|]. apply perm_swap. }
        assert (EG : forall w z l, S (S (length l)) = S d2 -> g (w :: z :: l) = g (z :: w :: l)).
        { intros. apply (sa_perm _ _ SG); [simpl; lia|]. apply perm_swap. }
        destruct d1 as [|d1]; destruct d2 as [|d2].
        -- destruct us; [|simpl in L; lia]. simpl. ring.
        -- rewrite !psum_0, !psum_SS, !psum_0.
           rewrite (psum_ext us 1 d2 f f (fun l => g (v :: u :: l)) (fun l => g (u :: v :: l)))
             by (auto; try lia; intros; apply EG; lia).
           ring.
        -- rewrite !psum_SS. rewrite !(psum_r0 _ (S (S d1))), !(psum_r0 _ (S d1)) by (simpl; lia).
           rewrite (psum_ext us d1 1 (fun l => f (v :: u :: l)) (fun l => f (u :: v :: l)) g g)
             by (auto; try lia; intros; apply EF; lia).
           ring.
        -- rewrite !psum_SS.
           rewrite (psum_ext us d1 (S (S d2)) (fun l => f (v :: u :: l)) (fun l => f (u :: v :: l)) g g)
             by (auto; try lia; intros; apply EF; lia).
           rewrite (psum_ext us (S (S d1)) d2 f f (fun l => g (v :: u :: l)) (fun l => g (u :: v :: l)))
             by (auto; try lia; intros; apply EG; lia).
           ring.
  - rewrite IH1 by assumption. apply IH2; auto. rewrite <- (Permutation_length P1). exact L.
Qed.

Lemma psum_symaff : forall d1 d2 f g, symaff d1 f -> symaff d2 g ->
  symaff (d1 + d2) (fun us => psum us d1 d2 f g).
Proof.
  intros d1 d2 f g SF SG. split.
  - intros us vs L P. apply psum_perm; auto.
  - intros us w u v L. destruct d1 as [|d1].
    + rewrite !psum_0. rewrite (sa_aff _ _ SG) by exact L. ring.
    + destruct d2 as [|d2].
      * rewrite Nat.add_0_r in L. rewrite !psum_r0 by exact L. rewrite (sa_aff _ _ SF) by exact L. ring.
      * rewrite !psum_SS.
        rewrite (psum_ext us d1 (S d2) (fun l => f ((1 - w) * u + w * v :: l))
                   (fun l => (1 - w) * f (u :: l) + w * f (v :: l)) g g)
          by (auto; try lia; intros; apply (sa_aff _ _ SF); lia).
        rewrite (psum_ext us (S d1) d2 f f (fun l => g ((1 - w) * u + w * v :: l))
                   (fun l => (1 - w) * g (u :: l) + w * g (v :: l)))
          by (auto; try lia; intros; apply (sa_aff _ _ SG); lia).
        rewrite psum_lin_f, psum_lin_g by lia. ring.
Qed.

Lemma psum_agree_f : forall m m1 t vs d1 d2 f f' g, (m + length vs = d1 + d2)%nat ->
  (m1 + d2 <= m)%nat ->
  (forall l, (m1 + length l = d1)%nat -> f (repeat t m1 ++ l) = f' (repeat t m1 ++ l)) ->
  psum (repeat t m ++ vs) d1 d2 f g = psum (repeat t m ++ vs) d1 d2 f' g.
Proof.
  induction m as [|m IH]; intros m1 t vs d1 d2 f f' g L Hm H.
  - replace m1 with 0%nat in H by lia. apply psum_ext; auto.
    all: try (rewrite app_length, repeat_length; exact L).
  - destruct m1 as [|m1].
    + apply psum_ext; auto. rewrite app_length, repeat_length; exact L.
    + simpl repeat. simpl app. destruct d1 as [|d1].
      { exfalso. lia. }
      destruct d2 as [|d2].
      * rewrite !psum_r0 by (simpl; rewrite app_length, repeat_length; lia). f_equal.
        replace m with (m1 + (m - m1))%nat by lia. rewrite repeat_app, <- app_assoc.
        apply (H (repeat t (m - m1) ++ vs)). rewrite app_length, repeat_length. lia.
      * rewrite !psum_SS. f_equal.
        -- apply (IH m1); try lia. intros l Hl. apply H. lia.
        -- apply (IH (S m1)); try lia. intros l Hl. apply H. lia.
Qed.

Lemma psum_agree_g : forall m m2 t vs d1 d2 f g g', (m + length vs = d1 + d2)%nat ->
  (m2 + d1 <= m)%nat ->
  (forall l, (m2 + length l = d2)%nat -> g (repeat t m2 ++ l) = g' (repeat t m2 ++ l)) ->
  psum (repeat t m ++ vs) d1 d2 f g = psum (repeat t m ++ vs) d1 d2 f g'.
Proof.
  intros. rewrite !(psum_comm _ d1 d2) by (rewrite app_length, repeat_length; lia).
  apply (psum_agree_f m m2); auto; lia.
Qed.

Definition prodform (d1 d2 : nat) (f g : list R -> R) (us : list R) : R :=
  / pcount d1 d2 * psum us d1 d2 f g.

Lemma prodform_diag : forall d1 d2 f g x,
  prodform d1 d2 f g (repeat x (d1 + d2)) = f (repeat x d1) * g (repeat x d2).
Proof.
  intros. unfold prodform. rewrite psum_diag. pose proof (pcount_pos d1 d2). field. lra.
Qed.

Lemma joins_prod : forall b d1 d2 F G, slack b d1 d2 F -> slack b d2 d1 G ->
  joins b (d1 + d2) (fun J => prodform d1 d2 (F J) (G J)).
Proof.
  intros b d1 d2 F G [SF AF] [SG AG]. split.
  - intros J A. destruct (psum_symaff d1 d2 (F J) (G J) (SF J A) (SG J A)) as [P Q]. unfold prodform. split.
    + intros. rewrite (P us vs); auto.
    + intros. rewrite Q by assumption. ring.
  - intros J m t vs NB L. unfold prodform. f_equal.
    assert (LL : length (repeat t m ++ vs) = (d1 + d2)%nat) by (rewrite app_length, repeat_length; exact L).
    transitivity (psum (repeat t m ++ vs) d1 d2 (F (J + m)%nat) (G J)).
    + destruct (AF J m t NB) as [H|[m1 [Hm H]]].
      * apply psum_ext; auto.
      * apply (psum_agree_f m m1); auto.
    + destruct (AG J m t NB) as [H|[m1 [Hm H]]].
      * apply psum_ext; auto.
      * apply (psum_agree_g m m1); auto.
Qed.
