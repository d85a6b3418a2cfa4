(** The inverse computed by shiftfirstknot_T undoes the shift, in both orders. *)
From Coq Require Import Reals Lra Lia List Permutation Arith Bool.
From Verif Require Import Blossom Spline_Model Spline_Spec Spline_Proofs Spline_Proofs2 Span_Proofs
  Splop_Model Shift_Model Shift_Spec Shift_Proofs.
Import ListNotations.
Local Open Scope R_scope.

(** ** an upper triangular block and its inverse *)
Definition blockt (deg : nat) (T : mat) : Prop :=
  (forall i j, (j < i)%nat -> T i j = 0) /\
  (forall i j, (i <= deg)%nat -> (deg < j)%nat -> T i j = 0) /\
  (forall i j, (deg < i)%nat -> T i j = eye i j) /\
  (forall i, (i <= deg)%nat -> T i i <> 0).

Lemma inv_row_other : forall deg T i M r c, r <> i -> inverse_row deg T i M r c = M r c.
Proof. intros. unfold inverse_row. destruct (Nat.eqb_spec r i); [lia|reflexivity]. Qed.

Lemma inv_rows_above : forall deg T n r c, (r + n <= deg)%nat \/ (deg < r)%nat ->
  inverse_rows deg T n r c = eye r c.
Proof.
  induction n as [|n IH]; intros r c H; [reflexivity|]. simpl.
  rewrite inv_row_other by lia. apply IH. lia.
Qed.

Lemma inv_rows_done : forall deg T n m r c, (deg - n < r)%nat \/ (deg < r)%nat -> (n + m <= deg + 1)%nat ->
  inverse_rows deg T (n + m) r c = inverse_rows deg T n r c.
Proof.
  induction m as [|m IH]; intros r c H Hm; [rewrite Nat.add_0_r; reflexivity|].
  rewrite Nat.add_succ_r. simpl. rewrite inv_row_other by lia. apply IH; lia.
Qed.

Lemma inv_entry : forall deg T r c, (r <= deg)%nat ->
  inverse_rows deg T (deg + 1) r c
  = if (c =? r)%nat then 1 / T r r
    else if (r <? c)%nat && (c <=? deg)%nat
    then (-1 / T r r) * rsum (deg + 1 - r) (fun k => T r (r + 1 + k)%nat * inverse_rows deg T (deg + 1) (r + 1 + k)%nat c)
    else 0.
Proof.
  intros deg T r c H.
  replace (deg + 1)%nat with (S (deg - r) + r)%nat at 1 by lia.
  assert (E : inverse_rows deg T (S (deg - r) + r) r c = inverse_rows deg T (S (deg - r)) r c).
  { destruct (Nat.eq_dec r 0) as [->|N].
    - rewrite Nat.add_0_r. reflexivity.
    - apply inv_rows_done; lia. }
  rewrite E. simpl. replace (deg - (deg - r))%nat with r by lia.
  unfold inverse_row. rewrite Nat.eqb_refl.
  destruct (Nat.eqb_spec c r) as [->|N]; [reflexivity|].
  destruct ((r <? c)%nat && (c <=? deg)%nat) eqn:B.
  - rewrite rangesum_shift. replace (deg + 2 - (r + 1))%nat with (deg + 1 - r)%nat by lia. f_equal.
    apply rsum_ext. intros k Hk. f_equal.
    replace (deg + 1)%nat with ((deg - r) + (r + 1))%nat at 1 by lia. symmetry.
    apply inv_rows_done; lia.
  - rewrite inv_rows_above by lia. unfold eye. destruct (Nat.eqb_spec r c); [lia|reflexivity].
Qed.

Lemma inv_below : forall deg T r c, (deg < r)%nat -> inverse_rows deg T (deg + 1) r c = eye r c.
Proof. intros. apply inv_rows_above. lia. Qed.

Lemma rsum_from : forall n i f, (i <= n)%nat -> (forall k, (k < i)%nat -> f k = 0) ->
  rsum n f = rsum (n - i) (fun k => f (i + k)%nat).
Proof.
  intros n i f H Z. revert n H. induction n as [|n IH]; intros H.
  - replace i with 0%nat by lia. reflexivity.
  - destruct (Nat.eq_dec i (S n)) as [->|N].
    + rewrite Nat.sub_diag. simpl rsum at 2. apply rsum_0. intros k Hk. apply Z. lia.
    + replace (S n - i)%nat with (S (n - i)) by lia. simpl. rewrite IH by lia.
      replace (i + (n - i))%nat with n by lia. reflexivity.
Qed.

(** the sum of a row of T against a vector *)
Lemma block_row : forall deg T N i v, blockt deg T -> (deg < N)%nat -> (i <= deg)%nat ->
  rsum N (fun k => T i k * v k) = T i i * v i + rsum (deg - i) (fun k => T i (i + 1 + k)%nat * v (i + 1 + k)%nat).
Proof.
  intros deg T N i v [B1 [B2 [B3 B4]]] HN Hi.
  replace N with (deg + 1 + (N - (deg + 1)))%nat by lia.
  rewrite rsum_more by (intros k Hk; rewrite B2 by lia; ring).
  rewrite (rsum_from (deg + 1) i) by (try lia; intros k Hk; rewrite B1 by lia; ring).
  replace (deg + 1 - i)%nat with (S (deg - i)) by lia. rewrite rsum_split0.
  rewrite Nat.add_0_r. f_equal. apply rsum_ext. intros k Hk.
  replace (i + S k)%nat with (i + 1 + k)%nat by lia. reflexivity.
Qed.

Lemma block_right : forall deg T N i j, blockt deg T -> (deg < N)%nat -> (i < N)%nat -> (j < N)%nat ->
  rsum N (fun k => T i k * inverse_rows deg T (deg + 1) k j) = eye i j.
Proof.
  intros deg T N i j B HN Hi Hj. set (M := inverse_rows deg T (deg + 1)).
  destruct (le_lt_dec i deg) as [H|H].
  - rewrite (block_row deg T N i (fun k => M k j) B HN H).
    destruct B as [B1 [B2 [B3 B4]]]. pose proof (B4 i H) as NZ.
    unfold M at 1. rewrite inv_entry by exact H.
    assert (LOW : forall k, (k < deg - i)%nat -> (j <= i)%nat \/ (deg < j)%nat -> M (i + 1 + k)%nat j = 0).
    { intros k Hk HJ. unfold M. rewrite inv_entry by lia.
      destruct (Nat.eqb_spec j (i + 1 + k)); [lia|].
      destruct (Nat.ltb_spec (i + 1 + k) j); [|reflexivity].
      destruct (Nat.leb_spec j deg); [lia|reflexivity]. }
    unfold eye. destruct (Nat.eqb_spec j i) as [->|N1].
    + rewrite Nat.eqb_refl. rewrite rsum_0; [field; exact NZ|].
      intros k Hk. rewrite LOW by (auto; lia). ring.
    + destruct (Nat.eqb_spec i j); [lia|].
      destruct (Nat.ltb_spec i j) as [L1|L1]; [destruct (Nat.leb_spec j deg) as [L2|L2]|]; simpl.
      * replace (deg + 1 - i)%nat with (S (deg - i)) by lia. simpl rsum at 1.
        rewrite (B2 i (i + 1 + (deg - i))%nat) by lia.
        change (inverse_rows deg T (deg + 1)) with M. field. exact NZ.
      * rewrite rsum_0; [ring|]. intros k Hk. rewrite LOW by (auto; lia). ring.
      * rewrite rsum_0; [ring|]. intros k Hk. rewrite LOW by (auto; lia). ring.
  - destruct B as [B1 [B2 [B3 B4]]]. rewrite (rsum_pick _ i).
    + rewrite B3 by exact H. unfold M. rewrite inv_below by exact H. unfold eye. rewrite Nat.eqb_refl. ring.
    + exact Hi.
    + intros k Hk N1. rewrite B3 by exact H. unfold eye. destruct (Nat.eqb_spec i k); [lia|ring].
Qed.

Lemma block_inj : forall deg T N v w, blockt deg T -> (deg < N)%nat ->
  (forall i, (i < N)%nat -> rsum N (fun k => T i k * v k) = rsum N (fun k => T i k * w k)) ->
  forall i, (i < N)%nat -> v i = w i.
Proof.
  intros deg T N v w B HN E.
  assert (HI : forall i, (deg < i)%nat -> (i < N)%nat -> v i = w i).
  { intros i H1 H2. specialize (E i H2). destruct B as [B1 [B2 [B3 B4]]].
    assert (P : forall u, rsum N (fun k => T i k * u k) = u i).
    { intros u. rewrite (rsum_pick _ i); [|exact H2|].
      - rewrite B3 by exact H1. unfold eye. rewrite Nat.eqb_refl. ring.
      - intros k Hk N1. rewrite B3 by exact H1. unfold eye. destruct (Nat.eqb_spec i k); [lia|ring]. }
    rewrite !P in E. exact E. }
  assert (LO : forall n i, (i + n = deg)%nat -> v i = w i).
  { induction n as [n IH] using lt_wf_ind. intros i Hn.
    assert (Hi : (i <= deg)%nat) by lia. specialize (E i ltac:(lia)).
    rewrite !(block_row deg T N i) in E by assumption.
    rewrite (rsum_ext (deg - i) _ (fun k => T i (i + 1 + k)%nat * w (i + 1 + k)%nat)) in E.
    - destruct B as [B1 [B2 [B3 B4]]]. apply (Rmult_eq_reg_l (T i i)); [lra|apply B4; exact Hi].
    - intros k Hk. rewrite (IH (deg - (i + 1 + k))%nat) by lia. reflexivity. }
  intros i Hi. destruct (le_lt_dec i deg) as [H|H]; [|apply HI; assumption].
  apply (LO (deg - i)%nat). lia.
Qed.

Lemma block_left : forall deg T N c, blockt deg T -> (deg < N)%nat -> forall i, (i < N)%nat ->
  rsum N (fun k => inverse_rows deg T (deg + 1) i k * rsum N (fun l => T k l * c l)) = c i.
Proof.
  intros deg T N c B HN.
  apply (block_inj deg T N (fun i => rsum N (fun k => inverse_rows deg T (deg + 1) i k * rsum N (fun l => T k l * c l)))
           c B HN).
  intros i Hi. set (M := inverse_rows deg T (deg + 1)). set (y := fun k => rsum N (fun l => T k l * c l)).
  rewrite (rsum_ext N _ (fun k => rsum N (fun q => (T i k * M k q) * y q))).
  - rewrite rsum_swap. change (rsum N (fun k => T i k * c k)) with (y i).
    rewrite (rsum_ext N _ (fun q => y q * (if (q =? i)%nat then 1 else 0))).
    + apply rsum_delta. exact Hi.
    + intros q Hq. rewrite (rsum_ext N _ (fun k => y q * (T i k * M k q))) by (intros; ring).
      rewrite rsum_scal. unfold M. rewrite (block_right deg T N i q B HN Hi Hq). unfold eye.
      rewrite Nat.eqb_sym. reflexivity.
  - intros k Hk. change (T i k * rsum N (fun q => M k q * y q) = rsum N (fun q => T i k * M k q * y q)).
    rewrite <- rsum_scal. apply rsum_ext. intros; ring.
Qed.

Lemma block_right_vec : forall deg T N c, blockt deg T -> (deg < N)%nat -> forall i, (i < N)%nat ->
  rsum N (fun k => T i k * rsum N (fun l => inverse_rows deg T (deg + 1) k l * c l)) = c i.
Proof.
  intros deg T N c B HN i Hi. set (M := inverse_rows deg T (deg + 1)).
  rewrite (rsum_ext N _ (fun k => rsum N (fun q => (T i k * M k q) * c q))).
  - rewrite rsum_swap.
    rewrite (rsum_ext N _ (fun q => c q * (if (q =? i)%nat then 1 else 0))).
    + apply rsum_delta. exact Hi.
    + intros q Hq. rewrite (rsum_ext N _ (fun k => c q * (T i k * M k q))) by (intros; ring).
      rewrite rsum_scal. unfold M. rewrite (block_right deg T N i q B HN Hi Hq). unfold eye.
      rewrite Nat.eqb_sym. reflexivity.
  - intros k Hk. rewrite <- rsum_scal. apply rsum_ext. intros; ring.
Qed.

(** ** the shift matrix is such a block *)
Lemma V_unit : forall b t n j l, (l <= degree b)%nat ->
  V b t n (fun q => if (q =? l)%nat then 1 else 0) j = shift_stages b t n j l.
Proof.
  intros. unfold V. rewrite rsum_delta by lia. reflexivity.
Qed.

Lemma V_support : forall b t c n j, (n <= j <= degree b)%nat ->
  (forall l, (j - n <= l <= j)%nat -> c l = 0) -> V b t n c j = 0.
Proof.
  intros b t c. induction n as [|k IH]; intros j H Z.
  - rewrite V_0 by lia. apply Z. lia.
  - rewrite V_mix by lia. rewrite !IH; try lia; [ring| |]; intros l Hl; apply Z; lia.
Qed.

Lemma V_corner : forall b t, nondecreasing (knots b) -> actint b (degree b) -> t < kn b (degree b + 1) ->
  forall n j, (n <= j <= degree b)%nat -> 0 < V b t n (fun q => if (q =? j - n)%nat then 1 else 0) j.
Proof.
  intros b t ND A Ht. pose proof (actint_pos b _ ND A) as AP. destruct A as [A1 [A2 A3]].
  induction n as [|k IH]; intros j H.
  - rewrite V_0 by lia. rewrite Nat.sub_0_r, Nat.eqb_refl. lra.
  - rewrite V_mix by lia. rewrite (V_support b t _ k j); [|lia|].
    + rewrite Rmult_0_r, Rplus_0_r.
      assert (P : kn b j < kn b (j + degree b - k)) by (apply AP; lia).
      assert (Q : kn b (degree b + 1) <= kn b (j + degree b - k)) by (unfold kn; apply ND; lia).
      apply Rmult_lt_0_compat; [apply Rdiv_lt_0_compat; lra|].
      replace (j - S k)%nat with ((j - 1) - k)%nat by lia. apply IH. lia.
    + intros l Hl. destruct (Nat.eqb_spec l (j - S k)); [lia|reflexivity].
Qed.

Lemma shift_block : forall b t, well_formed b -> in_first b t -> blockt (degree b) (shiftfirstknot b t).
Proof.
  intros b t W F. pose proof (first_act b t W F) as A. destruct W as [ND LE]. destruct F as [F1 F2].
  assert (E : forall i j, (i <= degree b)%nat -> (j <= degree b)%nat ->
    shiftfirstknot b t i j = V b t (degree b - i) (fun q => if (q =? j)%nat then 1 else 0) (degree b)).
  { intros i j Hi Hj. unfold shiftfirstknot.
    replace (i <? degree b + 1)%nat with true by (symmetry; apply Nat.ltb_lt; lia).
    replace (j <? degree b + 1)%nat with true by (symmetry; apply Nat.ltb_lt; lia). cbv iota. simpl andb. cbv iota.
    rewrite <- V_unit by exact Hj.
    replace (degree b + 1)%nat with (degree b - i + S i)%nat at 1 by lia.
    replace (degree b + 1 + i)%nat with (degree b + S i)%nat by lia. apply V_down. }
  assert (OUT : forall i j, (degree b < i \/ degree b < j)%nat -> shiftfirstknot b t i j = eye i j).
  { intros i j H. unfold shiftfirstknot.
    destruct (Nat.ltb_spec i (degree b + 1)); destruct (Nat.ltb_spec j (degree b + 1)); simpl; try reflexivity. lia. }
  split; [|split; [|split]].
  - intros i j H. destruct (le_lt_dec i (degree b)) as [Hi|Hi].
    + rewrite E by lia. apply V_support; [lia|]. intros l Hl. destruct (Nat.eqb_spec l j); [lia|reflexivity].
    + rewrite OUT by lia. unfold eye. destruct (Nat.eqb_spec i j); [lia|reflexivity].
  - intros i j Hi Hj. rewrite OUT by lia. unfold eye. destruct (Nat.eqb_spec i j); [lia|reflexivity].
  - intros i j Hi. apply OUT. lia.
  - intros i Hi. rewrite E by lia.
    pose proof (V_corner b t ND A F2 (degree b - i) (degree b) ltac:(lia)) as P.
    replace (degree b - (degree b - i))%nat with i in P by lia. lra.
Qed.

Lemma mdot_nth : forall r n M c i, (i < r)%nat -> nth i (mdot r n M c) 0 = rsum n (fun k => M i k * nth k c 0).
Proof. intros. unfold mdot. rewrite nth_map_seq by assumption. apply rangesum_0. Qed.
Lemma mdot_length : forall r n M c, length (mdot r n M c) = r.
Proof. intros. unfold mdot. rewrite map_length, seq_length. reflexivity. Qed.

Theorem bwd_fwd : forall b t c c2, well_formed b -> in_first b t -> length c = blen b ->
  shift_knot1_bwd (shift_knot1_fwd c b t) b t = Some c2 -> c2 = c.
Proof.
  intros b t c c2 W F L H. unfold shift_knot1_bwd in H.
  destruct (shiftfirstknot_inv b t) as [M|] eqn:EM; [|discriminate].
  assert (c2 = mdot (blen b) (blen b) M (shift_knot1_fwd c b t)) as -> by congruence. clear H.
  unfold shiftfirstknot_inv in EM. destruct ((0 <? degree b)%nat && _); [discriminate|].
  assert (M = inverse_rows (degree b) (shiftfirstknot b t) (degree b + 1)) as -> by congruence. clear EM.
  apply list_nth_ext; [rewrite mdot_length; lia|]. intros i Hi. rewrite mdot_length in Hi.
  rewrite mdot_nth by exact Hi.
  rewrite <- (block_left (degree b) (shiftfirstknot b t) (blen b) (fun k => nth k c 0) (shift_block b t W F)) with (i := i).
  - apply rsum_ext. intros k Hk. f_equal. unfold shift_knot1_fwd. rewrite mdot_nth by exact Hk. reflexivity.
  - destruct W as [_ LE]. unfold blen. lia.
  - exact Hi.
Qed.

Theorem fwd_bwd : forall b t c c2, well_formed b -> in_first b t -> length c = blen b ->
  shift_knot1_bwd c b t = Some c2 -> shift_knot1_fwd c2 b t = c.
Proof.
  intros b t c c2 W F L H. unfold shift_knot1_bwd in H.
  destruct (shiftfirstknot_inv b t) as [M|] eqn:EM; [|discriminate].
  assert (c2 = mdot (blen b) (blen b) M c) as -> by congruence. clear H.
  unfold shiftfirstknot_inv in EM. destruct ((0 <? degree b)%nat && _); [discriminate|].
  assert (M = inverse_rows (degree b) (shiftfirstknot b t) (degree b + 1)) as -> by congruence. clear EM.
  unfold shift_knot1_fwd.
  apply list_nth_ext; [rewrite mdot_length; lia|]. intros i Hi. rewrite mdot_length in Hi.
  rewrite mdot_nth by exact Hi.
  rewrite <- (block_right_vec (degree b) (shiftfirstknot b t) (blen b) (fun k => nth k c 0) (shift_block b t W F)) with (i := i).
  - apply rsum_ext. intros k Hk. f_equal. rewrite mdot_nth by exact Hk. reflexivity.
  - destruct W as [_ LE]. unfold blen. lia.
  - exact Hi.
Qed.

(** when the backward shift works *)
Theorem bwd_works : forall b t c, well_formed b ->
  (exists c2, shift_knot1_bwd c b t = Some c2 /\ length c2 = blen b) <->
  (degree b = 0 \/ 2 * degree b + 2 < length (knots b))%nat.
Proof.
  intros b t c [ND LE]. unfold shift_knot1_bwd, shiftfirstknot_inv.
  destruct (Nat.ltb_spec 0 (degree b)) as [H|H]; [destruct (Nat.leb_spec (blen b) (degree b + 1)) as [H2|H2]|]; simpl.
  - split; [intros [c2 [E _]]; discriminate|]. unfold blen in H2. lia.
  - split; [unfold blen in H2; lia|]. intros _. eexists. split; [reflexivity|apply mdot_length].
  - split; [lia|]. intros _. eexists. split; [reflexivity|apply mdot_length].
Qed.

(** the backward shift gives the spline on the old knots *)
Theorem bwd_call : forall b t c c2 x, well_formed b -> in_first b t -> length c = blen b ->
  shift_knot1_bwd c b t = Some c2 -> in_domain b x -> t <= x ->
  call (mkS b c2) x = call (mkS (first_moved b t) c) x.
Proof.
  intros b t c c2 x W F L H D Hx. rewrite <- (fwd_bwd b t c c2 W F L H). symmetry. apply fwd_call; auto.
  unfold shift_knot1_bwd in H. destruct (shiftfirstknot_inv b t); [|discriminate].
  assert (c2 = mdot (blen b) (blen b) m c) as -> by congruence. apply mdot_length.
Qed.
