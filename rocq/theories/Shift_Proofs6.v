(** shift_over_knot: the spline one knot interval further on. *)
From Coq Require Import Reals Lra Lia List Permutation Arith Bool.
From Verif Require Import Blossom Spline_Model Spline_Spec Spline_Proofs Spline_Proofs2 Spline_Proofs5 Span_Proofs
  Splop_Model Splop_Spec Splop_Proofs Splop_Proofs2 Shift_Model Shift_Spec Shift_Proofs Shift_Proofs2 Shift_Proofs3
  Shift_Proofs4 Shift_Proofs5.
Import ListNotations.
Local Open Scope R_scope.

Lemma close_call : forall b l1 l2 eps x, well_formed b -> in_domain b x ->
  length l1 = blen b -> length l2 = blen b ->
  (forall i, (i < blen b)%nat -> Rabs (nth i l1 0 - nth i l2 0) <= eps) ->
  Rabs (call (mkS b l1) x - call (mkS b l2) x) <= eps.
Proof.
  intros b l1 l2 eps x W D L1 L2 H. unfold call. cbn [sbasis coeffs].
  rewrite dot_minus by lia.
  apply Rle_trans with (eps * total (eval_basis b x)).
  - apply dot_bound.
    + rewrite map_length, combine_length, blen_eval. lia.
    + intros a I. apply (basis_nonneg b x a W D I).
    + intros v I. apply In_nth with (d := 0) in I. destruct I as [i [Hi E]].
      rewrite map_length, combine_length in Hi. subst v.
      assert (E0' : nth i (map (fun p => fst p - snd p) (combine l1 l2)) 0
              = (fun p : R * R => fst p - snd p) (nth i (combine l1 l2) (0, 0))).
      { rewrite <- (map_nth (fun p : R * R => fst p - snd p)). apply nth_indep.
        rewrite map_length, combine_length. exact Hi. }
      rewrite E0'. rewrite combine_nth by lia. cbn [fst snd]. apply H. lia.
  - rewrite (partition_of_unity b x W D). lra.
Qed.

Lemma M1 : (1 <= 1)%nat. Proof. lia. Qed.
Lemma M2 : forall b, (1 <= degree b + 1)%nat. Proof. intros. lia. Qed.

Section Sok.
Variables (b : bbasis) (tol : R) (c c3 : list R).
Hypothesis W : well_formed b.
Hypothesis CL : clamped b.
Hypothesis K0 : kn b 0 = 0.
Hypothesis ST : kn b (degree b + 1) < kn b (degree b + 2).
Hypothesis LM : last_mult b 1.
Hypothesis IM : inner_mult b = Some 1%nat.
Hypothesis D1 : (1 <= degree b)%nat.
Hypothesis ENOUGH : (2 * degree b <= blen b)%nat.
Hypothesis T0 : 0 <= tol.
Hypothesis LC : length c = blen b.
Let d := degree b.
Let N := blen b.
Let e := dom_right b - last_inner b.
Let t := kn b (d + 1).
Let b2 := extra_basis b 1 e.
Let b3 := advanced b.
Let cc := fun i => nth i c 0.
Let G := fun J => if (J <? N)%nat then piece d (kn b) cc J else piece d (kn b) cc (N - 1).

Lemma sok_len : length (knots b) = (N + d + 1)%nat.
Proof. apply (ext_len b 1 W M1 (M2 b)). Qed.
Lemma sok_e : 0 < e.
Proof. unfold e, dom_right, last_inner. destruct CL as [_ [_ [_ H]]]. lra. Qed.
Lemma sok_N : (d + 2 <= N)%nat.
Proof.
  pose proof sok_len as SL. pose proof (res_N b 1 W M1 (M2 b)) as RN. fold d N in RN.
  destruct LM as [_ [L2 [_ L4]]]. unfold last_inner in L4. rewrite SL in L2, L4. fold d in L2, L4.
  destruct (le_lt_dec (d + 2) N) as [H|H]; [exact H|]. exfalso.
  replace (N + d + 1 - d - 2 - 1)%nat with (N - 2)%nat in L4 by lia.
  replace (N + d + 1 - d - 2)%nat with (N - 1)%nat in L4 by lia.
  assert (N = d + 1)%nat as EN by lia. rewrite EN in L4.
  destruct CL as [C1 _]. fold d in C1. destruct W as [ND LE].
  pose proof (ND 0%nat (d + 1 - 2)%nat ltac:(lia) ltac:(rewrite SL; lia)).
  replace (d + 1 - 1)%nat with d in L4 by lia. lra.
Qed.

Lemma sok_ext : extended b 1 e = b2.
Proof.
  unfold extended, b2, extra_basis. f_equal. pose proof sok_len as SL.
  pose proof (ext_last b 1 W CL M1 (M2 b)) as ELA.
  assert (DR : dom_right b = kn b (blen b)).
  { unfold dom_right, kn. rewrite SL. f_equal. unfold N, d. lia. }
  rewrite ELA, <- DR. unfold dom_right. reflexivity.
Qed.
Lemma sok_kn : forall i, (d <= i)%nat -> kn b3 i = kn b2 (i + 1).
Proof.
  intros i H. unfold b3, advanced, kn at 1. cbn [knots]. fold d.
  assert (EE : extended b 1 (dom_right b - last_inner b) = b2).
  { apply sok_ext. }
  rewrite EE. destruct (Nat.eq_dec i d) as [->|NE].
  - rewrite app_nth1 by (rewrite repeat_length; lia). rewrite nth_repeat_lt by lia.
    unfold b2. rewrite (ext_kn_old b 1 e W CL M1 (M2 b)); [reflexivity|]. fold N. pose proof sok_N. lia.
  - rewrite app_nth2 by (rewrite repeat_length; lia). rewrite repeat_length, nth_skipn. unfold kn. f_equal. lia.
Qed.
Lemma sok_kn0 : forall i, (i <= d)%nat -> kn b3 i = t.
Proof.
  intros i H. unfold b3, advanced, kn. cbn [knots]. fold d.
  rewrite app_nth1 by (rewrite repeat_length; lia). rewrite nth_repeat_lt by lia. reflexivity.
Qed.
Lemma sok_len3 : length (knots b3) = (N + d + 1)%nat.
Proof.
  unfold b3, advanced. cbn [knots]. fold d.
  fold e. rewrite sok_ext. unfold b2.
  rewrite app_length, repeat_length, skipn_length, (ext_len2 b 1 e W CL M1 (M2 b)). fold d N. pose proof sok_N. lia.
Qed.
Lemma sok_blen3 : blen b3 = N.
Proof. unfold blen. rewrite sok_len3. change (degree b3) with d. lia. Qed.
Lemma sok_sorted : nondecreasing (knots b3).
Proof.
  intros i j Hij Hj. rewrite sok_len3 in Hj. change (kn b3 i <= kn b3 j). pose proof sok_N as SN.
  pose proof (ext_sorted b 1 e W CL M1 (M2 b) sok_e) as ES. pose proof (ext_len2 b 1 e W CL M1 (M2 b)) as L2. fold d N in L2.
  destruct (le_lt_dec i d) as [H|H].
  - rewrite sok_kn0 by exact H. destruct (le_lt_dec j d) as [H2|H2]; [rewrite sok_kn0 by exact H2; lra|].
    rewrite sok_kn by lia. unfold t. rewrite <- (ext_kn_old b 1 e W CL M1 (M2 b)) by (fold N; lia).
    apply ES; [lia|]. rewrite L2. lia.
  - rewrite !sok_kn by lia. apply ES; [lia|]. rewrite L2. lia.
Qed.
Lemma sok_wf : well_formed b3.
Proof. split; [apply sok_sorted|]. rewrite sok_len3. change (degree b3) with d. pose proof sok_N. lia. Qed.

Lemma sok_act : forall J, actint b3 J -> actint b2 (J + 1).
Proof.
  intros J [A1 [A2 A3]]. change (degree b3) with d in *. rewrite sok_len3 in A2.
  split; [change (degree b2) with d; lia|]. unfold b2. rewrite (ext_len2 b 1 e W CL M1 (M2 b)).
  change (degree (extra_basis b 1 e)) with d. fold d N b2. split; [lia|].
  rewrite !sok_kn in A3 by lia. exact A3.
Qed.
Lemma sok_joins : joins b3 (degree b3) (fun J => G (J + 1)%nat).
Proof.
  change (degree b3) with d. destruct (ext_joins b 1 e W CL M1 (M2 b) cc) as [J1 J2]. split.
  - intros J A. apply J1. apply sok_act. exact A.
  - intros J m u vs [A1 [A2 [A3 A4]]] HL. replace (J + m + 1)%nat with (J + 1 + m)%nat by lia.
    apply J2; [|exact HL]. split; [apply sok_act; exact A1|].
    split; [replace (J + 1 + m)%nat with (J + m + 1)%nat by lia; apply sok_act; exact A2|].
    split; [exact A3|]. intros j Hj. rewrite <- (A4 (j - 1)%nat) by lia.
    destruct A1 as [A1 _]. change (degree b3) with d in A1. rewrite sok_kn by lia. fold b2. f_equal. lia.
Qed.

Definition ex3 (i : nat) : R :=
  if (i <? d)%nat
  then fp b cc (map (kn b) (seq (d + 1) (1 + i)) ++ repeat t (d - 1 - i))
  else extc b 1 e cc (i + 1).

Lemma sok_act_d : actint b3 d.
Proof.
  pose proof sok_N as SN. split; [change (degree b3) with d; lia|]. split; [change (degree b3) with d; rewrite sok_len3; lia|].
  rewrite !sok_kn by lia. unfold b2. rewrite !(ext_kn_old b 1 e W CL M1 (M2 b)) by (fold N; lia).
  replace (d + 1 + 1)%nat with (d + 2)%nat by lia. exact ST.
Qed.

Lemma ex3_span : forall J a, actint b3 J -> (a <= J <= a + d)%nat -> ex3 a = span_cf b3 (fun J => G (J + 1)%nat) a.
Proof.
  intros J a A Ha. pose proof sok_N as SN. pose proof (res_N b 1 W M1 (M2 b)) as RN. destruct W as [ND LE].
  unfold ex3. destruct (Nat.ltb_spec a d) as [H|H].
  - rewrite (span_cf_eq b3 _ d a sok_sorted sok_joins sok_act_d); [|change (degree b3) with d; lia].
    change (degree b3) with d. unfold G. rewrite (proj2 (Nat.ltb_lt (d + 1) N)) by lia.
    destruct (joins_pieces b cc ND) as [J1 J2]. fold d in J1, J2.
    assert (A1 : actint b d).
    { split; [fold d; lia|]. split; [fold d; rewrite sok_len; lia|]. destruct CL as [_ [_ [C3 _]]]. exact C3. }
    assert (A2 : actint b (d + 1)).
    { split; [fold d; lia|]. split; [fold d; rewrite sok_len; lia|].
      replace (d + 1 + 1)%nat with (d + 2)%nat by lia. exact ST. }
    set (vs := repeat t (d - 1 - a) ++ map (kn b) (seq (d + 2) a)).
    assert (LV : (1 + length vs = d)%nat).
    { unfold vs. rewrite app_length, repeat_length, map_length, seq_length. lia. }
    transitivity (piece d (kn b) cc d (repeat t 1 ++ vs)).
    + unfold fp. fold d. apply (sa_perm d); [apply J1; exact A1| |].
      * rewrite app_length, map_length, seq_length, repeat_length. lia.
      * cbn [Nat.add seq map repeat]. unfold vs. simpl app. fold t. apply perm_skip.
        replace (S (d + 1)) with (d + 2)%nat by lia. apply Permutation_app_comm.
    + rewrite (J2 d 1%nat t vs).
      * f_equal. unfold vs.
        assert (E : seq (S a) d = seq (S a) (d - a) ++ seq (S a + (d - a)) a)
          by (rewrite <- seq_app; f_equal; lia). rewrite E, map_app.
        rewrite (map_const_repeat (kn b3) t (d - a) (S a)) by (intros; apply sok_kn0; lia).
        rewrite app_assoc. rewrite <- repeat_app. f_equal; [f_equal; lia|].
        replace (S a + (d - a))%nat with (d + 1)%nat by lia.
        replace (seq (d + 2) a) with (map S (seq (d + 1) a)) by (rewrite seq_shift; f_equal; lia).
        rewrite map_map. apply map_ext_in. intros i Hi. apply in_seq in Hi.
        rewrite sok_kn by lia. unfold b2. rewrite (ext_kn_old b 1 e W CL M1 (M2 b)).
        -- f_equal. lia.
        -- fold N. fold d N in ENOUGH. lia.
      * split; [exact A1|]. split; [exact A2|]. split; [lia|]. intros j Hj. unfold t. f_equal. lia.
      * exact LV.
  - rewrite (span_cf_eq b3 _ J a sok_sorted sok_joins A); [|change (degree b3) with d; lia].
    change (degree b3) with d.
    rewrite (extc_span b 1 e W CL M1 (M2 b) sok_e cc (J + 1) (a + 1) (sok_act J A)) by (fold d; lia).
    fold d N b2. change (fun J0 => if (J0 <? N)%nat then piece d (kn b) cc J0 else piece d (kn b) cc (N - 1)) with G.
    rewrite (span_cf_eq b2 G (J + 1) (a + 1) (ext_sorted b 1 e W CL M1 (M2 b) sok_e) (ext_joins b 1 e W CL M1 (M2 b) cc) (sok_act J A)).
    + change (degree b2) with d. f_equal.
      replace (S (a + 1)) with (S (S a)) by lia. rewrite <- seq_shift, map_map.
      apply map_ext_in. intros i Hi. apply in_seq in Hi. rewrite sok_kn by lia. f_equal. lia.
    + change (degree b2) with d. lia.
Qed.

Lemma ex3_call : forall x J, active b3 x J ->
  call (mkS b3 (map ex3 (seq 0 N))) x = G (J + 1)%nat (repeat x d).
Proof.
  intros x J A. pose proof (actint_active b3 x J A) as AI.
  rewrite (call_piece (mkS b3 (map ex3 (seq 0 N))) x J sok_sorted); [| |exact A].
  - cbn [sbasis]. change (degree b3) with d.
    transitivity (piece d (kn b3) (cf (mkS b3 (span_coeffs b3 (fun J => G (J + 1)%nat)))) J (repeat x d)).
    + apply piece_ext; [apply repeat_length|apply A| |reflexivity].
      intros a Ha. unfold cf, span_coeffs. cbn [coeffs].
      pose proof AI as [A1 [A2 A3]]. change (degree b3) with d in *. rewrite sok_len3 in A2.
      rewrite !nth_map_seq by (rewrite ?sok_blen3; lia).
      apply (ex3_span J); [exact AI|lia].
    + change d with (degree b3) at 1. apply (span_piece b3 (fun J => G (J + 1)%nat) J); [apply sok_sorted|apply sok_joins|exact AI|].
      apply repeat_length.
  - unfold sized. cbn [coeffs sbasis]. rewrite map_length, seq_length, sok_len3.
    change (degree b3) with d. lia.
Qed.

(** ** the computed coefficients *)
Hypothesis SK : shift_over_knot tol c b = Some c3.

Lemma sok_form : exists TE c2, extrapolate_T tol b e = Some ((N + 1)%nat, TE) /\ extrapolate tol c e b = Some c2 /\
  c2 = mdot (N + 1) N TE c /\
  (forall i j, (N + 1 - (d + 1) <= i)%nat -> (j < N - (d + 1))%nat -> TE i j = 0) /\
  c3 = mdot N N (fun i j =>
        if (N - (d + 1) <=? i)%nat && (N - (d + 1) <=? j)%nat
        then TE (N + 1 - (d + 1) + (i - (N - (d + 1))))%nat j
        else if (i <? d)%nat && (j <? d + 1)%nat
        then shift_stages b t d (d + 1 + i)%nat j
        else if (j =? i + 1)%nat then 1 else 0) c.
Proof.
  unfold shift_over_knot, shiftoverknot_T in SK. rewrite IM in SK.
  assert (EE : last (knots b) 0 - kn b (length (knots b) - degree b - 2) = e).
  { unfold e. rewrite (ext_last b 1 W CL M1 (M2 b)). unfold last_inner. unfold kn at 2. f_equal. }
  rewrite EE in SK. unfold extrapolate.
  destruct (extrapolate_T tol b e) as [[r TE]|] eqn:ET; [|discriminate].
  assert (r = (N + 1)%nat /\ forall i j, (N + 1 - (d + 1) <= i)%nat -> (j < N - (d + 1))%nat -> TE i j = 0) as [Er Z].
  { unfold extrapolate_T in ET. rewrite IM in ET. destruct (extra_cols _ _ _ _); [|discriminate].
    inversion ET as [[E1 E2]]. split; [reflexivity|]. intros i j Hi Hj. fold d N.
    rewrite (proj2 (Nat.leb_gt _ j)) by exact Hj. rewrite andb_false_r. unfold eye.
    destruct (Nat.eqb_spec i j); [lia|reflexivity]. }
  subst r. exists TE, (mdot (N + 1) N TE c). split; [reflexivity|]. split; [reflexivity|]. split; [reflexivity|].
  split; [exact Z|].
  inversion SK as [E]. fold d N. fold d in K0. rewrite K0. replace (kn b (d + 1) - 0) with t by (unfold t; ring).
  reflexivity.
Qed.

Lemma sok_c3len : length c3 = N.
Proof. destruct sok_form as [TE [c2 [_ [_ [_ [_ ->]]]]]]. apply mdot_length. Qed.

Lemma stage_last : forall j, (j < d)%nat -> shift_stages b t d (d + 1 + (d - 1))%nat j = 0.
Proof.
  intros j Hj. destruct d as [|d'] eqn:Ed; [lia|]. unfold d in Ed.
  rewrite <- (V_unit b t (S d') (S d' + 1 + (S d' - 1)) j) by lia. rewrite <- Ed at 2.
  assert (A1 : actint b (degree b)).
  { pose proof sok_N as SN. pose proof sok_len. unfold d in *.
    split; [lia|]. split; [lia|]. destruct CL as [_ [_ [C3 _]]]. exact C3. }
  destruct W as [ND LE]. replace (S d' - 1)%nat with d' by lia.
  rewrite (stages_value b t _ d' d' ND A1) by lia. unfold fp.
  replace (degree b - d' + d')%nat with (degree b) by lia. rewrite Nat.sub_diag. cbn [repeat]. rewrite app_nil_r.
  replace (degree b + 1)%nat with (S (degree b)) by lia.
  rewrite piece_dual; [|lia|apply actint_pos; assumption|lia].
  destruct (Nat.eqb_spec (degree b) j); [lia|reflexivity].
Qed.

Lemma sok_close : forall i, (i < N)%nat -> Rabs (nth i c3 0 - ex3 i) <= tol * size_of c.
Proof.
  intros i Hi. destruct sok_form as [TE [c2 [HT [HE [E2 [Z ->]]]]]].
  pose proof sok_N as SN. fold d N in ENOUGH. rewrite mdot_nth by exact Hi.
  assert (S0 : 0 <= tol * size_of c) by (apply Rmult_le_pos; [exact T0|apply size_nonneg]).
  assert (FIN : forall u v, u = v -> Rabs (u - v) <= tol * size_of c).
  { intros u v ->. replace (v - v) with 0 by ring. rewrite Rabs_R0. exact S0. }
  assert (A1 : actint b (degree b)).
  { pose proof sok_len. unfold d in *. split; [lia|]. split; [lia|]. destruct CL as [_ [_ [C3 _]]]. exact C3. }
  destruct (le_lt_dec (N - (d + 1)) i) as [H|H].
  - assert (E3 : rsum N (fun k =>
       (if (N - (d + 1) <=? i)%nat && (N - (d + 1) <=? k)%nat
        then TE (N + 1 - (d + 1) + (i - (N - (d + 1))))%nat k
        else if (i <? d)%nat && (k <? d + 1)%nat
        then shift_stages b t d (d + 1 + i)%nat k
        else if (k =? i + 1)%nat then 1 else 0) * nth k c 0) = nth (i + 1) c2 0).
    { rewrite E2, mdot_nth by lia. apply rsum_ext. intros k Hk. f_equal.
      rewrite (proj2 (Nat.leb_le _ i)) by exact H. cbn [andb].
      destruct (Nat.leb_spec (N - (d + 1)) k) as [Hk2|Hk2].
      - f_equal. lia.
      - rewrite Z by lia. destruct (Nat.ltb_spec i d) as [Hd|Hd].
        + rewrite (proj2 (Nat.ltb_lt k _)) by lia. cbn [andb].
          replace i with (d - 1)%nat by lia. apply stage_last. lia.
        + cbn [andb]. destruct (Nat.eqb_spec k (i + 1)); [lia|reflexivity]. }
    rewrite E3.
    assert (EX : ex3 i = extc b 1 e cc (i + 1)).
    { unfold ex3. destruct (Nat.ltb_spec i d) as [Hd|Hd]; [|reflexivity].
      assert (i = d - 1)%nat as -> by lia. assert (EN : N = (2 * d)%nat) by lia.
      unfold fp. fold d. replace (d - 1 - (d - 1))%nat with 0%nat by lia. cbn [repeat]. rewrite app_nil_r.
      replace (1 + (d - 1))%nat with d by lia. replace (d + 1)%nat with (S d) by lia.
      destruct W as [ND LE].
      rewrite piece_dual; [|lia|apply actint_pos; assumption|lia].
      rewrite (extc_last b 1 e W CL M1 (M2 b) cc) by (fold d N; lia). fold d N.
      rewrite (map_ext_in (kn b2) (kn b)).
      - replace (S (d - 1 + 1)) with (S d) by lia.
        rewrite piece_dual; [f_equal; lia|lia| |lia]. apply actint_pos; [exact ND|]. apply (ext_actJ0 b 1 W CL M1 (M2 b)).
      - intros q Hq. apply in_seq in Hq. apply (ext_kn_old b 1 e W CL M1 (M2 b)). fold N. lia. }
    rewrite EX. unfold cc.
    apply (res_all b 1 e W CL M1 (M2 b) sok_e tol c c2 T0 LC IM HE). fold N. lia.
  - apply FIN. destruct (le_lt_dec d i) as [Hd|Hd].
    + unfold ex3. rewrite (proj2 (Nat.ltb_ge i d)) by exact Hd.
      unfold extc. fold d N. rewrite (proj2 (Nat.ltb_lt (i + 1) _)) by lia. unfold cc.
      rewrite (rsum_pick _ (i + 1)).
      * rewrite (proj2 (Nat.leb_gt _ i)) by exact H.
        cbn [andb]. rewrite Nat.eqb_refl. ring.
      * lia.
      * intros k Hk NE. rewrite (proj2 (Nat.leb_gt _ i)) by exact H.
        cbn [andb]. destruct (Nat.eqb_spec k (i + 1)); [lia|ring].
    + unfold ex3. rewrite (proj2 (Nat.ltb_lt i d)) by exact Hd.
      replace N with (d + 1 + (N - (d + 1)))%nat by lia. rewrite rsum_more.
      * rewrite (rsum_ext _ _ (fun l => shift_stages b t d (d + 1 + i)%nat l * cc l)).
        -- change (rsum (d + 1) (fun l => shift_stages b t d (d + 1 + i)%nat l * cc l)) with (V b t d cc (d + 1 + i)).
           replace d with (S (d - 1)) at 1 by lia.
           destruct W as [ND LE]. unfold d at 2. rewrite (stages_value b t cc (d - 1) i ND A1) by (fold d; lia).
           fold d. replace (d - (d - 1) + i)%nat with (1 + i)%nat by lia. reflexivity.
        -- intros l Hl.
           match goal with |- context [((?u <=? i)%nat)] => rewrite (proj2 (Nat.leb_gt u i)) by lia end.
           rewrite (proj2 (Nat.ltb_lt l (d + 1))) by exact Hl.
           reflexivity.
      * intros l Hl.
        match goal with |- context [((?u <=? i)%nat)] => rewrite (proj2 (Nat.leb_gt u i)) by lia end.
        rewrite (proj2 (Nat.ltb_ge l (d + 1))) by lia. rewrite andb_false_r. cbn [andb].
        destruct (Nat.eqb_spec l (i + 1)); [lia|ring].
Qed.

Lemma sok_in : forall x, t <= x <= dom_right b + e -> in_domain b3 x.
Proof.
  intros x H. pose proof sok_N as SN. pose proof sok_len as SL.
  assert (DR : dom_right b3 = dom_right b + e).
  { unfold dom_right. change (nth (length (knots b3) - degree b3 - 1) (knots b3) 0) with
      (kn b3 (length (knots b3) - degree b3 - 1)).
    rewrite sok_len3. change (degree b3) with d. rewrite sok_kn by lia. unfold b2.
    rewrite (ext_kn_new b 1 e W CL M1 (M2 b)) by (fold d N; lia). rewrite SL. fold d N. unfold kn. f_equal. f_equal. lia. }
  assert (DL : dom_left b3 = t) by (unfold dom_left; change (degree b3) with d; apply sok_kn0; lia).
  unfold in_domain. rewrite DR, DL. destruct (Rle_lt_or_eq_dec t x) as [L|L]; [lra|left; lra|right].
  split; [rewrite <- L; symmetry; apply (sok_kn0 0); lia|]. split; [lra|].
  change (degree b3) with d. destruct sok_act_d as [_ [_ A]]. rewrite sok_kn0 in A by lia. exact A.
Qed.

Lemma sok_call : forall x, t <= x <= dom_right b + e ->
  Rabs (call (mkS b3 c3) x - call (mkS b2 (extl b 1 e cc)) x) <= tol * size_of c.
Proof.
  intros x H. pose proof sok_N as SN. pose proof (sok_in x H) as D. destruct (active_exists b3 x sok_wf D) as [J A].
  assert (E : call (mkS b3 (map ex3 (seq 0 N))) x = call (mkS b2 (extl b 1 e cc)) x).
  { rewrite (ex3_call x J A).
    destruct (Rle_lt_or_eq_dec t x) as [Lt|Et]; [lra| |].
    - assert (A2 : active b2 x (J + 1)).
      { destruct A as [A1 [A2 [A3 A4]]]. change (degree b3) with d in *. rewrite sok_len3 in A2.
        apply active_inside; [change (degree b2) with d; lia| |].
        - unfold b2. rewrite (ext_len2 b 1 e W CL M1 (M2 b)). change (degree (extra_basis b 1 e)) with d. fold d N. lia.
        - destruct A4 as [A4|[A4 [_ A5]]]; [rewrite !sok_kn in A4 by lia; exact A4|].
          exfalso. change (degree b3) with d in A5. subst J. rewrite sok_kn0 in A4 by lia. lra. }
      unfold b2. rewrite (extl_call b 1 e W CL M1 (M2 b) sok_e cc x _ A2). fold d N. unfold G.
      destruct (J + 1 <? N)%nat; reflexivity.
    - (* the knot itself: both pieces agree there *)
      assert (EJ : J = d).
      { destruct A as [A1 [A2 [A3 A4]]]. change (degree b3) with d in *. rewrite sok_len3 in A2.
        destruct A4 as [A4|[A4 [A5 A6]]]; [|exact A6].
        destruct (Nat.eq_dec J d) as [Q|Q]; [exact Q|]. exfalso.
        pose proof (sok_sorted d J ltac:(lia) ltac:(rewrite sok_len3; lia)) as P.
        change (kn b3 d <= kn b3 J) in P. rewrite sok_kn0 in P by lia. lra. }
      subst J.
      assert (A2 : active b2 x d).
      { apply active_inside; [change (degree b2) with d; lia| |].
        - unfold b2. rewrite (ext_len2 b 1 e W CL M1 (M2 b)). change (degree (extra_basis b 1 e)) with d. fold d N. lia.
        - unfold b2. rewrite !(ext_kn_old b 1 e W CL M1 (M2 b)) by (fold N; lia). fold t.
          destruct CL as [_ [_ [C3 _]]]. fold d in C3. change (kn b d < t) in C3. lra. }
      unfold b2. rewrite (extl_call b 1 e W CL M1 (M2 b) sok_e cc x _ A2). fold d N. unfold G.
      rewrite (proj2 (Nat.ltb_lt (d + 1) N)) by lia. rewrite (proj2 (Nat.ltb_lt d N)) by lia.
      subst x. destruct W as [ND LE]. destruct (joins_pieces b cc ND) as [J1 J2]. fold d in J1, J2.
      assert (A1' : actint b d).
      { split; [fold d; lia|]. split; [fold d; rewrite sok_len; lia|]. destruct CL as [_ [_ [C3 _]]]. exact C3. }
      assert (A2' : actint b (d + 1)).
      { split; [fold d; lia|]. split; [fold d; rewrite sok_len; lia|].
        replace (d + 1 + 1)%nat with (d + 2)%nat by lia. exact ST. }
      fold d in D1. replace d with (S (d - 1)) at 3 6 by lia.
      change (repeat t (S (d - 1))) with (repeat t 1 ++ repeat t (d - 1)). symmetry.
      apply J2; [|rewrite repeat_length; lia].
      split; [exact A1'|]. split; [exact A2'|]. split; [lia|]. intros j Hj. unfold t. f_equal. lia. }
  rewrite <- E. apply close_call; [apply sok_wf|exact D|rewrite sok_blen3; apply sok_c3len| |].
  - rewrite map_length, seq_length, sok_blen3. reflexivity.
  - intros i Hi. rewrite sok_blen3 in Hi. rewrite nth_map_seq by exact Hi. apply sok_close. exact Hi.
Qed.
End Sok.
