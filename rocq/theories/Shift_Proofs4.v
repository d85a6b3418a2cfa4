(** extrapolate_T: the linear system is solved by the coefficients of the
    continued last piece. *)
From Coq Require Import Reals Lra Lia List Permutation Arith Bool.
From Verif Require Import Blossom Spline_Model Spline_Spec Spline_Proofs Spline_Proofs2 Spline_Proofs5 Span_Proofs
  Splop_Model Splop_Spec Splop_Proofs Splop_Proofs2 Shift_Model Shift_Spec Shift_Proofs Shift_Proofs2 Shift_Proofs3.
Import ListNotations.
Local Open Scope R_scope.

Lemma nth_repeat_lt : forall (x : R) n i, (i < n)%nat -> nth i (repeat x n) 0 = x.
Proof. induction n as [|n IH]; intros [|i] H; simpl; auto; try lia. apply IH. lia. Qed.

Lemma rsum_app : forall n m f, rsum (n + m) f = rsum n f + rsum m (fun i => f (n + i)%nat).
Proof.
  induction m as [|m IH]; intros f; [rewrite Nat.add_0_r; simpl; ring|].
  rewrite Nat.add_succ_r. simpl. rewrite IH. ring.
Qed.

Lemma split_rows : forall n m (k0 h f : nat -> R), (m <= n)%nat ->
  (forall q, (q < m)%nat -> k0 q = h q - f q) -> (forall q, (m <= q < n)%nat -> k0 q = h q) ->
  rsum n k0 = rsum n h - rsum m f.
Proof.
  intros n m k0 h f H H1 H2. replace n with (m + (n - m))%nat by lia. rewrite !rsum_app.
  rewrite (rsum_ext m k0 (fun q => h q + (-1) * f q)) by (intros; rewrite H1 by assumption; ring).
  rewrite rsum_add, rsum_scal.
  rewrite (rsum_ext (n - m) _ (fun i => h (m + i)%nat)) by (intros; apply H2; lia). ring.
Qed.

Section Ext.
Variables (b : bbasis) (m : nat) (e : R).
Hypothesis W : well_formed b.
Hypothesis CL : clamped b.
Hypothesis M1 : (1 <= m)%nat.
Hypothesis M2 : (m <= degree b + 1)%nat.
Hypothesis E0 : 0 < e.

Let d := degree b.
Let N := blen b.
Let b2 := extra_basis b m e.

Lemma ext_len : length (knots b) = (N + d + 1)%nat.
Proof. destruct W as [ND LE]. unfold N, blen, d. lia. Qed.
Lemma ext_N : (d + 1 <= N)%nat.
Proof. destruct W as [ND LE]. unfold N, blen, d. lia. Qed.

Lemma ext_right : forall i, (N <= i <= N + d)%nat -> kn b i = kn b N.
Proof.
  intros i H. destruct W as [ND LE]. destruct CL as [C1 [C2 [C3 C4]]].
  fold d in C2. rewrite ext_len in C2.
  replace (N + d + 1 - d - 1)%nat with N in C2 by lia. replace (N + d + 1 - 1)%nat with (N + d)%nat in C2 by lia.
  assert (kn b N <= kn b i <= kn b (N + d)).
  { pose proof ext_len. split; unfold kn; apply ND; lia. }
  unfold kn in *. lra.
Qed.
Lemma ext_step : kn b (N - 1) < kn b N.
Proof.
  destruct CL as [C1 [C2 [C3 C4]]]. fold d in C4. rewrite ext_len in C4.
  replace (N + d + 1 - d - 1)%nat with N in C4 by lia.
  replace (N + d + 1 - d - 2)%nat with (N - 1)%nat in C4 by lia. exact C4.
Qed.
Lemma ext_last : last (knots b) 0 = kn b N.
Proof.
  rewrite last_nth_R, ext_len. replace (N + d + 1 - 1)%nat with (N + d)%nat by lia.
  apply (ext_right (N + d)). lia.
Qed.

Lemma ext_knots : knots b2 = firstn N (knots b) ++ repeat (kn b N) m ++ repeat (kn b N + e) (d + 1).
Proof.
  unfold b2, extra_basis. cbn [knots]. rewrite ext_last, ext_len. fold d.
  replace (N + d + 1 - d - 1)%nat with N by lia. reflexivity.
Qed.
Lemma ext_len2 : length (knots b2) = (N + m + d + 1)%nat.
Proof.
  rewrite ext_knots, !app_length, !repeat_length, firstn_length, ext_len. lia.
Qed.
Lemma ext_blen2 : blen b2 = (N + m)%nat.
Proof. unfold blen. rewrite ext_len2. change (degree b2) with d. lia. Qed.

Lemma ext_kn_old : forall i, (i < N + m)%nat -> kn b2 i = kn b i.
Proof.
  intros i H. unfold kn at 1. rewrite ext_knots.
  assert (LF : length (firstn N (knots b)) = N) by (rewrite firstn_length, ext_len; lia).
  destruct (le_lt_dec N i) as [G|G].
  - rewrite app_nth2 by lia. rewrite LF. rewrite app_nth1 by (rewrite repeat_length; lia).
    rewrite nth_repeat_lt by lia. symmetry. apply ext_right. unfold d. lia.
  - rewrite app_nth1 by lia. rewrite nth_firstn by exact G. reflexivity.
Qed.
Lemma ext_kn_new : forall i, (N + m <= i < N + m + d + 1)%nat -> kn b2 i = kn b N + e.
Proof.
  intros i H. unfold kn at 1. rewrite ext_knots.
  assert (LF : length (firstn N (knots b)) = N) by (rewrite firstn_length, ext_len; lia).
  rewrite app_nth2 by lia. rewrite app_nth2 by (rewrite repeat_length; lia).
  apply nth_repeat_lt. rewrite repeat_length. lia.
Qed.
Lemma ext_mid : forall i, (N <= i < N + m)%nat -> kn b2 i = kn b N.
Proof. intros i H. rewrite ext_kn_old by lia. apply ext_right. unfold d. lia. Qed.

Lemma ext_le : forall i, (i < N + m)%nat -> kn b2 i <= kn b N.
Proof.
  intros i H. rewrite ext_kn_old by exact H. destruct W as [ND LE]. pose proof ext_len.
  destruct (le_lt_dec N i) as [G|G]; [rewrite ext_right by (unfold d; lia); lra|].
  unfold kn. apply ND; lia.
Qed.

Lemma ext_sorted : nondecreasing (knots b2).
Proof.
  intros i j Hij Hj. rewrite ext_len2 in Hj. change (kn b2 i <= kn b2 j).
  destruct (le_lt_dec (N + m) j) as [G|G].
  - rewrite (ext_kn_new j) by lia. destruct (le_lt_dec (N + m) i) as [G2|G2].
    + rewrite ext_kn_new by lia. lra.
    + pose proof (ext_le i G2). lra.
  - rewrite !ext_kn_old by lia. destruct W as [ND LE]. pose proof ext_len. unfold kn.
    apply ND; unfold d in *; lia.
Qed.
Lemma ext_wf : well_formed b2.
Proof.
  split; [apply ext_sorted|]. rewrite ext_len2. change (degree b2) with d. pose proof ext_N. lia.
Qed.

Lemma ext_actJ0 : actint b (N - 1).
Proof.
  pose proof ext_N. pose proof ext_len. split; [fold d; lia|]. split; [fold d; lia|].
  replace (N - 1 + 1)%nat with N by lia. apply ext_step.
Qed.

Lemma ext_act : forall J, actint b2 J -> (J < N)%nat /\ actint b J \/ J = (N + m - 1)%nat.
Proof.
  intros J [A1 [A2 A3]]. change (degree b2) with d in *. rewrite ext_len2 in A2.
  destruct (le_lt_dec N J) as [G|G].
  - right. destruct (Nat.eq_dec J (N + m - 1)) as [->|NE]; [reflexivity|]. exfalso.
    rewrite !ext_mid in A3 by lia. lra.
  - left. split; [exact G|]. rewrite !ext_kn_old in A3 by lia. pose proof ext_len.
    split; [exact A1|]. split; [fold d; lia|exact A3].
Qed.
Lemma ext_act_old : forall J, actint b J -> actint b2 J.
Proof.
  intros J [A1 [A2 A3]]. fold d in A1, A2. rewrite ext_len in A2.
  split; [exact A1|]. change (degree b2) with d. rewrite ext_len2. split; [lia|].
  rewrite !ext_kn_old by lia. exact A3.
Qed.
Lemma ext_act_new : actint b2 (N + m - 1).
Proof.
  pose proof ext_N. split; [change (degree b2) with d; lia|]. change (degree b2) with d. rewrite ext_len2.
  split; [lia|]. rewrite ext_mid by lia. rewrite ext_kn_new by lia. lra.
Qed.

Section Coefs.
Variable c : nat -> R.
Let Fl := piece d (kn b) c (N - 1).
Let G := fun J => if (J <? N)%nat then piece d (kn b) c J else Fl.
Definition extc (a : nat) : R :=
  if (a <? N + m - (d + 1))%nat then c a else Fl (map (kn b2) (seq (S a) d)).

Lemma Fl_symaff : symaff d Fl.
Proof.
  pose proof ext_N. apply piece_symaff; [lia|]. destruct W as [ND LE]. apply actint_pos; auto. apply ext_actJ0.
Qed.

Lemma ext_joins : joins b2 (degree b2) G.
Proof.
  change (degree b2) with d. destruct W as [ND LE].
  destruct (joins_pieces b c ND) as [J1 J2]. split.
  - intros J A. unfold G. destruct (Nat.ltb_spec J N) as [H|H]; [|apply Fl_symaff].
    apply J1. destruct (ext_act J A) as [[_ A']|E]; [exact A'|lia].
  - intros J p t vs [A1 [A2 [Hp K]]] HL. pose proof A1 as A1'. pose proof A2 as A2'.
    destruct (ext_act J A1) as [[H1 B1]|E1].
    + destruct (ext_act (J + p) A2) as [[H2 B2]|E2].
      * unfold G. rewrite (proj2 (Nat.ltb_lt _ _) H1), (proj2 (Nat.ltb_lt _ _) H2).
        apply J2; [|exact HL]. split; [exact B1|]. split; [exact B2|]. split; [exact Hp|].
        intros j Hj. rewrite <- (K j Hj). symmetry. apply ext_kn_old. lia.
      * assert (J = N - 1)%nat as ->.
        { destruct (Nat.eq_dec J (N - 1)) as [E|NE]; [exact E|]. exfalso.
          pose proof (K (N - 1)%nat ltac:(lia)) as Q1. pose proof (K N ltac:(lia)) as Q2.
          rewrite ext_kn_old in Q1, Q2 by lia. pose proof ext_step. lra. }
        unfold G. rewrite (proj2 (Nat.ltb_lt (N - 1) N)) by lia. rewrite E2.
        rewrite (proj2 (Nat.ltb_ge (N + m - 1) N)) by lia. reflexivity.
    + exfalso. destruct A2 as [_ [A2 _]]. change (degree b2) with d in A2. rewrite ext_len2 in A2. lia.
Qed.

Lemma extc_last : forall a, (N - (d + 1) <= a)%nat -> extc a = Fl (map (kn b2) (seq (S a) d)).
Proof.
  intros a H. unfold extc. destruct (Nat.ltb_spec a (N + m - (d + 1))) as [H1|H1]; [|reflexivity].
  pose proof ext_N. destruct W as [ND LE]. unfold Fl.
  rewrite (map_ext_in (kn b2) (kn b)).
  - symmetry. apply piece_dual; [lia|apply actint_pos; [exact ND|apply ext_actJ0]|].
    lia.
  - intros i Hi. apply in_seq in Hi. apply ext_kn_old. lia.
Qed.

Lemma extc_span : forall J a, actint b2 J -> (a <= J <= a + d)%nat -> extc a = span_cf b2 G a.
Proof.
  intros J a A Ha. pose proof ext_N as EN. destruct W as [ND LE].
  destruct (le_lt_dec N a) as [H|H].
  - rewrite extc_last by lia. destruct (ext_act J A) as [[Q _]|EJ]; [lia|subst J].
    rewrite (span_cf_eq b2 G (N + m - 1) a ext_sorted ext_joins A); [|change (degree b2) with d; lia].
    unfold G. rewrite (proj2 (Nat.ltb_ge (N + m - 1) N)) by lia. reflexivity.
  - destruct (le_lt_dec (N - (d + 1)) a) as [H1|H1].
    + rewrite extc_last by lia.
      rewrite (span_cf_eq b2 G (N - 1) a ext_sorted ext_joins (ext_act_old _ ext_actJ0));
        [|change (degree b2) with d; lia].
      unfold G. rewrite (proj2 (Nat.ltb_lt (N - 1) N)) by lia. reflexivity.
    + unfold extc. rewrite (proj2 (Nat.ltb_lt a _)) by lia.
      destruct (ext_act J A) as [[Q B]|E]; [|lia].
      rewrite (span_cf_eq b2 G J a ext_sorted ext_joins A); [|change (degree b2) with d; lia].
      unfold G. rewrite (proj2 (Nat.ltb_lt J N)) by lia. change (degree b2) with d.
      rewrite (map_ext_in (kn b2) (kn b)).
      * symmetry. apply piece_dual; [apply B|apply actint_pos; assumption|lia].
      * intros i Hi. apply in_seq in Hi. apply ext_kn_old. lia.
Qed.

Definition extl : list R := map extc (seq 0 (N + m)).

Lemma extl_call : forall x J, active b2 x J -> call (mkS b2 extl) x = G J (repeat x d).
Proof.
  intros x J A. pose proof (actint_active b2 x J A) as AI.
  rewrite (call_piece (mkS b2 extl) x J ext_sorted); [| |exact A].
  - cbn [sbasis]. change (degree b2) with d.
    transitivity (piece d (kn b2) (cf (mkS b2 (span_coeffs b2 G))) J (repeat x d)).
    + apply piece_ext; [apply repeat_length|apply A| |reflexivity].
      intros a Ha. unfold cf, span_coeffs, extl. cbn [coeffs].
      destruct AI as [A1 [A2 A3]]. change (degree b2) with d in *. rewrite ext_len2 in A2.
      rewrite !nth_map_seq by (rewrite ?ext_blen2; lia).
      apply (extc_span J); [|lia].
      split; [exact A1|]. change (degree b2) with d. rewrite ext_len2. split; [exact A2|exact A3].
    + change d with (degree b2) at 1. apply (span_piece b2 G J); [apply ext_sorted|apply ext_joins|exact AI|].
      apply repeat_length.
  - unfold sized, extl. cbn [coeffs sbasis]. rewrite map_length, seq_length, ext_len2.
    change (degree b2) with d. lia.
Qed.

(** ** the equations *)
Definition clast : list R := map c (seq (N - (d + 1)) (d + 1)).
Definition xlast : list R := map extc (seq (N + m - (d + 1)) (d + 1)).

Lemma nth_map_from : forall (f : nat -> R) a n i, (i < n)%nat -> nth i (map f (seq a n)) 0 = f (a + i)%nat.
Proof.
  intros f a n i H. rewrite (nth_indep _ 0 (f 0%nat)) by (rewrite map_length, seq_length; exact H).
  rewrite map_nth, seq_nth by exact H. reflexivity.
Qed.

Lemma dot_rows : forall u f a n, length u = n ->
  dot u (map f (seq a n)) = rsum n (fun i => nth i u 0 * f (a + i)%nat).
Proof.
  intros u f a n L. rewrite dot_rsum by (rewrite map_length, seq_length; exact L). rewrite L.
  apply rsum_ext. intros i Hi. rewrite nth_map_from by exact Hi. reflexivity.
Qed.

Lemma eval_row : forall g i, in_domain b g -> (i < d + 1 - m)%nat ->
  rsum (d + 1) (fun q => (if (q <? d + 1 - m)%nat then nth (N - d - 1 + m + q) (eval_basis b2 g) 0 else 0)
                         * extc (N + m - (d + 1) + q))
  = rsum (d + 1) (fun q => (if (q <? m)%nat then nth (N - d - 1 + q) (eval_basis b g) 0 - nth (N - d - 1 + q) (eval_basis b2 g) 0
                            else nth (N - d - 1 + q) (eval_basis b g) 0) * c (N - (d + 1) + q)%nat).
Proof.
  intros g i D Hi. pose proof ext_N as EN. pose proof ext_len as EL. destruct W as [ND LE].
  destruct (active_exists b g W D) as [J A].
  assert (AJ : (J < N)%nat) by (destruct A as [_ [A _]]; fold d in A; lia).
  assert (A2 : active b2 g J).
  { destruct A as [A1 [A2 [A3 A4]]]. split; [exact A1|]. change (degree b2) with d. rewrite ext_len2.
    fold d in A2, A4. split; [lia|]. rewrite !ext_kn_old by lia. split; [exact A3|exact A4]. }
  assert (D1 : (1 <= d \/ d = 0)%nat) by lia.
  assert (NB1 : forall a, (a < N)%nat -> nth a (eval_basis b g) 0 = NB d (kn b) J g a).
  { intros a Ha. unfold eval_basis. fold d. apply basis_row_NB; auto. lia. }
  assert (NB2 : forall a, (a < N + m)%nat -> nth a (eval_basis b2 g) 0 = NB d (kn b2) J g a).
  { intros a Ha. unfold eval_basis. change (degree b2) with d. apply basis_row_NB; auto.
    - apply ext_sorted. - rewrite ext_len2. lia. }
  set (f := fun q => nth q (eval_basis b2 g) 0 * extc q). set (h := fun q => nth q (eval_basis b g) 0 * c q).
  assert (EQ : rsum (N + m) f = rsum N h).
  { pose proof (extl_call g J A2) as P. unfold G in P. rewrite (proj2 (Nat.ltb_lt J N) AJ) in P.
    assert (SZ : sized (mkS b (map c (seq 0 N)))).
    { unfold sized. cbn [coeffs sbasis]. rewrite map_length, seq_length. reflexivity. }
    pose proof (call_piece (mkS b (map c (seq 0 N))) g J ND SZ A) as P2. cbn [sbasis] in P2. fold d in P2.
    rewrite (piece_ext d (kn b) (kn b) (cf (mkS b (map c (seq 0 N)))) c J) in P2.
    - rewrite <- P2 in P. unfold call in P. cbn [sbasis coeffs] in P.
      unfold extl in P. rewrite !dot_rows in P by (rewrite eval_basis_length, ?ext_len2; try reflexivity; change (degree b2) with d; lia).
      unfold f, h. exact P.
    - apply repeat_length.
    - apply A.
    - intros a Ha. unfold cf. cbn [coeffs]. apply nth_map_seq. lia.
    - reflexivity. }
  rewrite rsum_more in EQ.
  2:{ intros q Hq. unfold f. rewrite NB2 by lia. rewrite NB_support by lia. ring. }
  replace N with (N - (d + 1) + (d + 1))%nat in EQ by lia. rewrite !(rsum_app (N - (d + 1)) (d + 1)) in EQ.
  rewrite (rsum_ext (N - (d + 1)) f h) in EQ.
  2:{ intros q Hq. unfold f, h. rewrite NB2, NB1 by lia. unfold extc.
      rewrite (proj2 (Nat.ltb_lt q _)) by lia. f_equal.
      apply NB_ext. intros p Hp. apply ext_kn_old. lia. }
  apply Rplus_eq_reg_l in EQ.
  set (f' := fun q => f (N - (d + 1) + q)%nat) in *. set (h' := fun q => h (N - (d + 1) + q)%nat) in *.
  transitivity (rsum (d + 1) h' - rsum m f').
  - rewrite <- EQ. assert (S1 : rsum (d + 1) f' = rsum m f' + rsum (d + 1 - m) (fun i0 => f' (m + i0)%nat)) by (rewrite <- rsum_app; f_equal; lia). rewrite S1.
    replace (d + 1)%nat with (d + 1 - m + m)%nat at 1 by lia. rewrite rsum_more.
    + rewrite (rsum_ext (d + 1 - m) _ (fun i0 => f' (m + i0)%nat)); [ring|].
      intros q Hq. rewrite (proj2 (Nat.ltb_lt q _)) by exact Hq. unfold f', f. f_equal; f_equal; lia.
    + intros q Hq. rewrite (proj2 (Nat.ltb_ge q _)) by lia. ring.
  - symmetry. apply (split_rows (d + 1) m); [exact M2| |].
    + intros q Hq. rewrite (proj2 (Nat.ltb_lt q m)) by exact Hq. unfold h', f', h, f.
      replace (N - d - 1 + q)%nat with (N - (d + 1) + q)%nat by lia. unfold extc.
      rewrite (proj2 (Nat.ltb_lt (N - (d + 1) + q) _)) by lia. ring.
    + intros q Hq. rewrite (proj2 (Nat.ltb_ge q m)) by lia. unfold h', h.
      replace (N - d - 1 + q)%nat with (N - (d + 1) + q)%nat by lia. reflexivity.
Qed.

Lemma last_dual : forall q, (q <= d)%nat ->
  c (N - (d + 1) + q)%nat = Fl (map (kn b) (seq (N - d + q) d)).
Proof.
  intros q Hq. pose proof ext_N. destruct W as [ND LE]. unfold Fl.
  replace (N - d + q)%nat with (S (N - (d + 1) + q)) by lia. symmetry.
  apply piece_dual; [lia|apply actint_pos; [exact ND|apply ext_actJ0]|lia].
Qed.

Lemma deriv_row : forall i, (1 <= i <= d)%nat -> (d + 1 - m <= i)%nat ->
  rsum (d + 1) (fun q => diff_stages b2 (N + m) i 0%nat q * extc (N + m - (d + 1) + q))
  = rsum (d + 1) (fun q => diff_stages b N i (d - i)%nat q * c (N - (d + 1) + q)%nat).
Proof.
  intros i Hi Hm. pose proof ext_N as EN. pose proof ext_len as EL. pose proof Fl_symaff as SA.
  destruct W as [ND LE].
  change (DV b2 (N + m) i (fun q => extc (N + m - (d + 1) + q)) 0
          = DV b N i (fun q => c (N - (d + 1) + q)%nat) (d - i)).
  rewrite (DV_slopes b2 (N + m) Fl); try (change (degree b2) with d).
  - rewrite (DV_slopes b N Fl); fold d.
    + f_equal. f_equal. rewrite (map_const_repeat (kn b2) (kn b N) (d - i) (N + m - d + i + 0)).
      * rewrite (map_const_repeat (kn b) (kn b N) (d - i) (N - d + i + (d - i))); [reflexivity|].
        intros j Hj. apply ext_right. lia.
      * intros j Hj. apply ext_mid. lia.
    + exact SA.
    + lia.
    + intros q Hq. apply last_dual. exact Hq.
    + intros i0 j Hj. rewrite (ext_right (j + N)) by lia.
      assert (kn b (j + N + i0 - d) <= kn b (N - 1)) by (unfold kn; apply ND; lia).
      pose proof ext_step. lra.
    + lia.
    + lia.
  - exact SA.
  - lia.
  - intros q Hq. rewrite extc_last by lia.
    replace (S (N + m - (d + 1) + q)) with (N + m - d + q)%nat by lia. reflexivity.
  - intros i0 j Hj. rewrite (ext_kn_new (j + (N + m))) by lia.
    pose proof (ext_le (j + (N + m) + i0 - d) ltac:(lia)). lra.
  - lia.
  - lia.
Qed.

Lemma value_row : m = (d + 1)%nat -> extc (N + m - (d + 1)) = c (N - (d + 1) + d)%nat.
Proof.
  intros E. pose proof ext_N. rewrite extc_last by lia. rewrite last_dual by lia. f_equal.
  rewrite (map_const_repeat (kn b2) (kn b N)) by (intros; apply ext_mid; lia).
  rewrite (map_const_repeat (kn b) (kn b N)) by (intros; apply ext_right; lia). reflexivity.
Qed.

Lemma ext_greville : forall i, (i < d + 1 - m)%nat ->
  in_domain b (nth (N - (d + 1 - m) + i) (greville b) 0).
Proof.
  intros i Hi. pose proof ext_N as EN. pose proof ext_len as EL.
  set (a := (N - (d + 1 - m) + i)%nat).
  assert (HA : (a < blen b)%nat) by (fold N; unfold a; lia).
  pose proof (greville_bounds b a W ltac:(fold d; lia) HA) as [G1 G2]. fold d in G2.
  apply (clamped_in b (kn b 0) (kn b (N + d))).
  - split; [exact W|]. split; [exact CL|]. split; [reflexivity|].
    rewrite EL. replace (N + d + 1 - 1)%nat with (N + d)%nat by lia. reflexivity.
  - destruct W as [ND LE]. unfold kn. split.
    + apply Rle_trans with (nth (a + 1) (knots b) 0); [apply ND; unfold a; lia|exact G1].
    + apply Rle_trans with (nth (a + d) (knots b) 0); [exact G2|apply ND; unfold a; lia].
Qed.

Lemma extra_A_length : forall i, length (extra_A b m e i) = (d + 1)%nat.
Proof.
  intros i. unfold extra_A. fold d N b2. destruct (i <? d + 1 - m)%nat; [|destruct (i =? 0)%nat];
  rewrite map_length, seq_length; reflexivity.
Qed.
Lemma extra_B_length : forall i, length (extra_B b m e i) = (d + 1)%nat.
Proof.
  intros i. unfold extra_B. fold d N. destruct (i <? d + 1 - m)%nat; [|destruct (i =? 0)%nat];
  rewrite map_length, seq_length; reflexivity.
Qed.

Lemma rows_hold : forall i, (i < d + 1)%nat ->
  dot (extra_A b m e i) xlast = dot (extra_B b m e i) clast.
Proof.
  intros i Hi. unfold xlast, clast.
  rewrite (dot_rows (extra_A b m e i)) by apply extra_A_length.
  rewrite (dot_rows (extra_B b m e i)) by apply extra_B_length.
  unfold extra_A, extra_B. fold d N b2.
  destruct (Nat.ltb_spec i (d + 1 - m)) as [H|H].
  - rewrite (rsum_ext _ _ (fun q => (if (q <? d + 1 - m)%nat then nth (N - d - 1 + m + q)
      (eval_basis b2 (nth (N - (d + 1 - m) + i) (greville b) 0)) 0 else 0) * extc (N + m - (d + 1) + q))).
    2:{ intros q Hq. rewrite nth_map_seq by exact Hq. reflexivity. }
    rewrite (eval_row (nth (N - (d + 1 - m) + i) (greville b) 0) i (ext_greville i H) H).
    apply rsum_ext. intros q Hq. rewrite nth_map_seq by exact Hq. reflexivity.
  - destruct (Nat.eqb_spec i 0) as [->|NZ].
    + rewrite (rsum_pick _ 0).
      * rewrite nth_map_seq by lia. simpl. rewrite (rsum_pick _ d).
        -- rewrite nth_map_seq by lia. rewrite Nat.eqb_refl.
           rewrite Nat.add_0_r, Rmult_1_l, Rmult_1_l. apply value_row. unfold d in *. lia.
        -- lia.
        -- intros q Hq NE. rewrite nth_map_seq by lia. destruct (Nat.eqb_spec q d); [lia|ring].
      * lia.
      * intros q Hq NE. rewrite nth_map_seq by lia. destruct (Nat.eqb_spec q 0); [lia|ring].
    + rewrite (rsum_ext _ _ (fun q => diff_stages b2 (N + m) i 0%nat q * extc (N + m - (d + 1) + q)))
        by (intros q Hq; rewrite nth_map_seq by exact Hq; reflexivity).
      rewrite deriv_row by lia.
      apply rsum_ext. intros q Hq. rewrite nth_map_seq by exact Hq. reflexivity.
Qed.
End Coefs.
End Ext.
