(** The statements about extrapolate and shift_over_knot. *)
From Coq Require Import Reals Lra Lia List Permutation Arith Bool.
From Verif Require Import Blossom Spline_Model Spline_Spec Spline_Proofs Spline_Proofs2 Spline_Proofs3 Spline_Proofs5 Span_Proofs
  Splop_Model Splop_Spec Splop_Proofs Splop_Proofs2 Shift_Model Shift_Spec Shift_Proofs Shift_Proofs2 Shift_Proofs3
  Shift_Proofs4 Shift_Proofs5 Shift_Proofs6 Shift_Proofs7.
Import ListNotations.
Local Open Scope R_scope.

(** ** the number of repeated inner knots *)
Lemma inner_repeat_complete : forall fuel b m0 m, last_mult b m -> (m0 <= m)%nat -> (m - m0 < fuel)%nat ->
  inner_repeat fuel b m0 = Some m.
Proof.
  induction fuel as [|f IH]; intros b m0 m LM H F; [lia|]. simpl.
  pose proof LM as [L1 [L2 [L3 L4]]].
  rewrite (proj2 (Nat.leb_le (degree b + 2 + m0) (length (knots b)))) by lia.
  destruct (Nat.eq_dec m0 m) as [->|NE].
  - replace (Rleb _ _) with false; [reflexivity|]. symmetry. apply Rleb_false. exact L4.
  - replace (Rleb _ _) with true; [apply IH; auto; lia|]. symmetry. apply Rleb_true.
    unfold kn. rewrite (L3 m0) by lia. apply Rle_refl.
Qed.
Lemma inner_mult_iff : forall b m, well_formed b -> (inner_mult b = Some m <-> last_mult b m).
Proof.
  intros b m W. split; [apply inner_mult_spec; exact W|]. intros LM. apply inner_repeat_complete; [exact LM| |].
  - apply LM. - destruct LM as [_ [H _]]. lia.
Qed.
Lemma inner_repeat_none : forall fuel b m0, (length (knots b) < fuel + degree b + 2 + m0)%nat -> nondecreasing (knots b) ->
  inner_repeat fuel b m0 = None -> (m0 + degree b + 1 <= length (knots b))%nat ->
  (forall i, (i < m0)%nat -> kn b (length (knots b) - degree b - 2 - i) = kn b (length (knots b) - degree b - 2)) ->
  kn b 0 = kn b (length (knots b) - degree b - 2).
Proof.
  induction fuel as [|f IH]; intros b m0 H ND E LE HE.
  - assert (Q : (length (knots b) = m0 + degree b + 1)%nat) by lia.
    destruct m0 as [|m1]; [f_equal; lia|]. rewrite <- (HE m1) by lia. f_equal. lia.
  - simpl in E. destruct (Nat.leb_spec (degree b + 2 + m0) (length (knots b))) as [L|L].
    + destruct (Rleb _ _) eqn:R; [|discriminate].
      apply (IH b (m0 + 1)%nat); auto; try lia. intros i Hi.
      destruct (Nat.eq_dec i m0) as [->|NE]; [|apply HE; lia].
      apply Rleb_true in R. apply Rle_antisym; [unfold kn; apply ND; lia|exact R].
    + destruct m0 as [|m1]; [f_equal; lia|]. rewrite <- (HE m1) by lia. f_equal. lia.
Qed.

(** without inner knots the search runs off the list *)
Theorem no_inner_raises : forall tol b e c, well_formed b -> clamped b ->
  (length (knots b) = 2 * degree b + 2)%nat ->
  extrapolate tol c e b = None /\ shift_over_knot tol c b = None.
Proof.
  intros tol b e c W CL L.
  assert (E : inner_mult b = None).
  { destruct (inner_mult b) as [m|] eqn:IM; [|reflexivity]. exfalso.
    destruct (inner_mult_spec b m W IM) as [L1 [L2 [L3 L4]]].
    destruct CL as [C1 _]. destruct W as [ND LE]. unfold last_inner in L4.
    replace (length (knots b) - degree b - 2)%nat with (degree b) in L4 by lia.
    pose proof (ND 0%nat (degree b - m)%nat ltac:(lia) ltac:(lia)). lra. }
  unfold extrapolate, extrapolate_T, shift_over_knot, shiftoverknot_T. rewrite E. split; reflexivity.
Qed.

Theorem extrapolate_works : forall tol b e c, well_formed b -> clamped b -> 0 < e -> last_mult b 1 ->
  (1 <= degree b)%nat -> last_inner b <= nth (blen b - degree b) (greville b) 0 ->
  exists c2, extrapolate tol c e b = Some c2.
Proof.
  intros tol b e c W CL E0 LM D1 GV.
  destruct (extra_total b e W CL E0 LM D1 GV tol) as [cols HC].
  unfold extrapolate, extrapolate_T. rewrite (proj2 (inner_mult_iff b 1 W) LM), HC. eexists. reflexivity.
Qed.

Theorem shift_over_knot_works : forall tol b c, well_formed b -> clamped b -> last_mult b 1 ->
  (1 <= degree b)%nat -> last_inner b <= nth (blen b - degree b) (greville b) 0 ->
  exists c2, shift_over_knot tol c b = Some c2.
Proof.
  intros tol b c W CL LM D1 GV.
  assert (E0 : 0 < last (knots b) 0 - kn b (length (knots b) - degree b - 2)).
  { rewrite (ext_last b 1 W CL t1 (t2 b)). pose proof (tot_len b W) as TL.
    replace (kn b (length (knots b) - degree b - 2)) with (kn b (blen b - 1)) by (rewrite TL; f_equal; lia).
    pose proof (ext_step b 1 W CL t1 (t2 b)). lra. }
  destruct (extra_total b _ W CL E0 LM D1 GV tol) as [cols HC].
  unfold shift_over_knot, shiftoverknot_T, extrapolate_T. rewrite (proj2 (inner_mult_iff b 1 W) LM), HC.
  eexists. reflexivity.
Qed.

Theorem shift_over_knot_close : forall tol b c c2, 0 <= tol -> well_formed b -> clamped b ->
  nth 0 (knots b) 0 = 0 -> (1 <= degree b)%nat ->
  nth (degree b + 1) (knots b) 0 < nth (degree b + 2) (knots b) 0 -> last_mult b 1 ->
  (2 * degree b <= blen b)%nat -> length c = blen b ->
  shift_over_knot tol c b = Some c2 ->
  length c2 = blen b /\
  (forall x, nth (degree b + 1) (knots b) 0 <= x <= dom_right b ->
     Rabs (call (mkS (advanced b) c2) x - call (mkS b c) x) <= tol * size_of c) /\
  (exists a, length a = (degree b + 1)%nat /\
     (forall x, last_inner b < x <= dom_right b -> call (mkS b c) x = poly a x) /\
     (forall x, last_inner b < x <= dom_right b + (dom_right b - last_inner b) ->
        Rabs (call (mkS (advanced b) c2) x - poly a x) <= tol * size_of c)).
Proof.
  intros tol b c c2 T0 W CL K0 D1 ST LM EN LC SK.
  pose proof (proj2 (inner_mult_iff b 1 W) LM) as IM.
  pose proof (sok_e b CL) as E0. set (e := dom_right b - last_inner b) in *.
  assert (SK2 := SK). destruct (sok_form b tol c c2 W CL K0 IM D1 EN LC SK2) as [TE [cx [HT [HE _]]]]. fold e in HE.
  split; [apply (sok_c3len b tol c c2 W CL K0 IM D1 EN LC SK)|].
  assert (BND : forall x, nth (degree b + 1) (knots b) 0 <= x <= dom_right b + e ->
    Rabs (call (mkS (advanced b) c2) x - call (mkS (extra_basis b 1 e) (extl b 1 e (fun i => nth i c 0))) x)
    <= tol * size_of c).
  { intros x H. apply (sok_call b tol c c2 W CL K0 ST LM IM D1 EN T0 LC SK x H). }
  assert (FI : dom_left b < nth (degree b + 1) (knots b) 0) by (destruct CL as [_ [_ [C _]]]; exact C).
  assert (LI : nth (degree b + 1) (knots b) 0 <= last_inner b).
  { pose proof (sok_N b c W CL LM D1 EN LC) as SN. pose proof (tot_len b W) as TL. unfold last_inner. destruct W as [ND LE].
    apply ND; lia. }
  split.
  - intros x H. rewrite <- (ext_call_old b 1 e W CL t1 (t2 b) E0 c LC x) by lra. apply BND. lra.
  - destruct (symaff_poly (degree b) _ (Fl_symaff b 1 W CL t1 (t2 b) (fun i => nth i c 0))) as [a [LA HA]].
    exists a. split; [lia|]. split.
    + intros x H. rewrite <- (ext_call_old b 1 e W CL t1 (t2 b) E0 c LC x) by lra.
      rewrite (ext_call_new b 1 e W CL t1 (t2 b) E0 c LC x) by lra. apply HA.
    + intros x H. rewrite <- HA, <- (ext_call_new b 1 e W CL t1 (t2 b) E0 c LC x) by lra. apply BND. lra.
Qed.

(** ** equidistant knots *)
Section Equi.
Variables (d K : nat) (h : R).
Hypothesis H0 : 0 < h.
Hypothesis K2 : (2 <= K)%nat.
Let b := equidistant d K h.

Lemma eq_len : length (knots b) = (K + 2 * d + 1)%nat.
Proof. unfold b, equidistant. cbn [knots]. rewrite !app_length, !repeat_length, map_length, seq_length. lia. Qed.
Lemma eq_kn : forall i, (i < K + 2 * d + 1)%nat -> kn b i = INR (Nat.min (i - d) K) * h.
Proof.
  intros i Hi. unfold kn, b, equidistant. cbn [knots].
  destruct (le_lt_dec d i) as [H|H].
  - rewrite app_nth2 by (rewrite repeat_length; lia). rewrite repeat_length.
    destruct (le_lt_dec (i - d) K) as [G|G].
    + rewrite app_nth1 by (rewrite map_length, seq_length; lia). rewrite nth_map_seq by lia.
      rewrite Nat.min_l by exact G. reflexivity.
    + rewrite app_nth2 by (rewrite map_length, seq_length; lia). rewrite map_length, seq_length.
      rewrite nth_repeat_lt by lia. rewrite Nat.min_r by lia. reflexivity.
  - rewrite app_nth1 by (rewrite repeat_length; lia). rewrite nth_repeat_lt by lia.
    replace (i - d)%nat with 0%nat by lia. simpl. ring.
Qed.
Lemma eq_lt : forall i j, (i < j)%nat -> INR i * h < INR j * h.
Proof. intros i j H. apply Rmult_lt_compat_r; [exact H0|]. apply lt_INR. exact H. Qed.
Lemma eq_le : forall i j, (i <= j)%nat -> INR i * h <= INR j * h.
Proof. intros i j H. apply Rmult_le_compat_r; [lra|]. apply le_INR. exact H. Qed.
Lemma eq_wf : well_formed b.
Proof.
  split.
  - intros i j Hij Hj. rewrite eq_len in Hj. change (kn b i <= kn b j). rewrite !eq_kn by lia. apply eq_le. lia.
  - rewrite eq_len. change (degree b) with d. lia.
Qed.
Lemma eq_kn' : forall i v, (i < K + 2 * d + 1)%nat -> Nat.min (i - d) K = v -> nth i (knots b) 0 = INR v * h.
Proof. intros i v Hi <-. apply eq_kn. exact Hi. Qed.
Lemma eq_clamped : clamped b.
Proof.
  unfold clamped. change (degree b) with d. rewrite eq_len.
  rewrite (eq_kn' 0 0), (eq_kn' d 0), (eq_kn' (d + 1) 1), (eq_kn' (K + 2 * d + 1 - d - 1) K),
    (eq_kn' (K + 2 * d + 1 - 1) K), (eq_kn' (K + 2 * d + 1 - d - 2) (K - 1)) by lia.
  split; [reflexivity|]. split; [reflexivity|]. split; apply eq_lt; lia.
Qed.
Lemma eq_last : last_inner b = INR (K - 1) * h.
Proof. unfold last_inner. change (degree b) with d. rewrite eq_len. apply eq_kn'; lia. Qed.
Lemma eq_right : dom_right b = INR K * h.
Proof. unfold dom_right. change (degree b) with d. rewrite eq_len. apply eq_kn'; lia. Qed.
Lemma eq_mult : last_mult b 1.
Proof.
  split; [lia|]. change (degree b) with d. rewrite eq_len. split; [lia|]. rewrite eq_last. split.
  - intros i Hi. apply eq_kn'; lia.
  - rewrite (eq_kn' _ (K - 2)) by lia. apply eq_lt. lia.
Qed.
Lemma eq_blen : blen b = (K + d)%nat.
Proof. unfold blen. rewrite eq_len. change (degree b) with d. lia. Qed.
Lemma eq_greville : (1 <= d <= 3)%nat -> (d <= K)%nat -> last_inner b <= nth (blen b - d) (greville b) 0.
Proof.
  intros Hd HK. rewrite eq_last. rewrite greville_nth by (rewrite eq_blen; lia). rewrite eq_blen.
  change (degree b) with d. replace (K + d - d)%nat with K by lia.
  rewrite (rsum_ext d _ (fun i => INR (K + 1 + i - d) * h)).
  2:{ intros i Hi. rewrite eq_kn by lia. f_equal. f_equal. lia. }
  assert (HP : forall n, (n <= K)%nat -> INR (K - n) = INR K - INR n) by (intros; apply minus_INR; assumption).
  rewrite HP by lia.
  assert (d = 1 \/ d = 2 \/ d = 3)%nat as [E|[E|E]] by lia; rewrite E in HK |- *; simpl rsum.
  - replace (K + 1 + 0 - 1)%nat with (K - 0)%nat by lia. rewrite HP by lia. simpl. nra.
  - replace (K + 1 + 0 - 2)%nat with (K - 1)%nat by lia. replace (K + 1 + 1 - 2)%nat with (K - 0)%nat by lia.
    rewrite !HP by lia. simpl. nra.
  - replace (K + 1 + 0 - 3)%nat with (K - 2)%nat by lia. replace (K + 1 + 1 - 3)%nat with (K - 1)%nat by lia.
    replace (K + 1 + 2 - 3)%nat with (K - 0)%nat by lia. rewrite !HP by lia. simpl. nra.
Qed.

Lemma eq_e : dom_right b - last_inner b = h.
Proof. rewrite eq_right, eq_last, minus_INR by lia. simpl. ring. Qed.

Lemma eq_advanced : (1 <= d)%nat -> (d <= K)%nat -> forall i, (i < K + 2 * d + 1)%nat ->
  kn (advanced b) i = INR (Nat.min (i - d) K) * h + h.
Proof.
  intros D1 DK i Hi. set (c := repeat 0 (blen b)).
  assert (LC : length c = blen b) by apply repeat_length.
  assert (EN : (2 * degree b <= blen b)%nat) by (rewrite eq_blen; change (degree b) with d; lia).
  destruct (le_lt_dec i d) as [H|H].
  - pose proof (sok_kn0 b c D1 EN LC i H) as E.
    rewrite E. rewrite (eq_kn (degree b + 1)) by (change (degree b) with d; lia). change (degree b) with d.
    replace (Nat.min (d + 1 - d) K) with 1%nat by lia. replace (Nat.min (i - d) K) with 0%nat by lia. simpl. ring.
  - rewrite (sok_kn b c eq_wf eq_clamped eq_mult D1 EN LC i) by (change (degree b) with d; lia).
    rewrite eq_e. destruct (le_lt_dec (i + 1) (K + d)) as [G|G].
    + rewrite (ext_kn_old b 1 h eq_wf eq_clamped t1 (t2 b)) by (rewrite eq_blen; lia).
      rewrite eq_kn by lia. replace (Nat.min (i - d) K) with (i - d)%nat by lia.
      replace (Nat.min (i + 1 - d) K) with (S (i - d)) by lia. rewrite S_INR. ring.
    + rewrite (ext_kn_new b 1 h eq_wf eq_clamped t1 (t2 b)) by (rewrite eq_blen; change (degree b) with d; lia).
      rewrite eq_blen, eq_kn by lia. replace (Nat.min (K + d - d) K) with K by lia.
      replace (Nat.min (i - d) K) with K by lia. ring.
Qed.
Lemma eq_adv_len : (1 <= d)%nat -> (d <= K)%nat -> length (knots (advanced b)) = (K + 2 * d + 1)%nat.
Proof.
  intros D1 DK. set (c := repeat 0 (blen b)).
  assert (LC : length c = blen b) by apply repeat_length.
  assert (EN : (2 * degree b <= blen b)%nat) by (rewrite eq_blen; change (degree b) with d; lia).
  rewrite (sok_len3 b c eq_wf eq_clamped eq_mult D1 EN LC), eq_blen. change (degree b) with d. lia.
Qed.
Lemma eq_shifted : (1 <= d)%nat -> (d <= K)%nat -> advanced b = scale_basis b 1 h.
Proof.
  intros D1 DK. unfold scale_basis. assert (E : advanced b = mkB (knots (advanced b)) d) by reflexivity.
  rewrite E. change (degree b) with d. f_equal. apply (nth_ext _ _ 0 0).
  - rewrite (eq_adv_len D1 DK), map_length, eq_len. reflexivity.
  - intros i Hi. rewrite (eq_adv_len D1 DK) in Hi.
    change (kn (advanced b) i = nth i (map (fun k => k * 1 + h) (knots b)) 0).
    rewrite (eq_advanced D1 DK) by exact Hi.
    rewrite (nth_indep _ 0 ((fun k => k * 1 + h) 0)) by (rewrite map_length, eq_len; exact Hi).
    rewrite (map_nth (fun k => k * 1 + h)). rewrite (eq_kn' i _ Hi eq_refl). ring.
Qed.

(** one period later *)
Theorem shift_equidistant : (1 <= d)%nat -> (d <= K)%nat -> forall tol c c2, 0 <= tol -> length c = (K + d)%nat ->
  shift_over_knot tol c b = Some c2 ->
  length c2 = (K + d)%nat /\
  (forall x, 0 <= x <= INR (K - 1) * h ->
     Rabs (call (mkS b c2) x - call (mkS b c) (x + h)) <= tol * size_of c) /\
  (exists a, length a = (d + 1)%nat /\
     (forall x, INR (K - 1) * h < x <= INR K * h -> call (mkS b c) x = poly a x) /\
     (forall x, INR (K - 1) * h < x <= INR K * h ->
        Rabs (call (mkS b c2) x - poly a (x + h)) <= tol * size_of c)).
Proof.
  intros D1 DK tol c c2 T0 LC SK.
  assert (EN : (2 * degree b <= blen b)%nat) by (rewrite eq_blen; change (degree b) with d; lia).
  destruct (shift_over_knot_close tol b c c2 T0 eq_wf eq_clamped) as [L [A [a [LA [P Q]]]]]; auto.
  - rewrite (eq_kn' 0 0) by lia. simpl. ring.
  - change (degree b) with d. rewrite (eq_kn' (d + 1) 1), (eq_kn' (d + 2) 2) by lia. apply eq_lt. lia.
  - apply eq_mult.
  - rewrite eq_blen. exact LC.
  - change (degree b) with d in *. rewrite eq_blen in L. rewrite (eq_shifted D1 DK) in A, Q.
    assert (SH : forall x, call (mkS (scale_basis b 1 h) c2) (x + h) = call (mkS b c2) x).
    { intros x. rewrite <- (scale_call (mkS b c2) 1 h x) by lra. rewrite Rmult_1_r. reflexivity. }
    rewrite eq_e, eq_last, eq_right in *. rewrite (eq_kn' (d + 1) 1) in A by lia.
    rewrite minus_INR in * by lia. simpl INR in *.
    split; [exact L|]. split.
    + intros x H. rewrite <- SH. apply A. lra.
    + exists a. split; [exact LA|]. split; [exact P|]. intros x H. rewrite <- SH. apply Q. lra.
Qed.

Theorem shift_equidistant_works : (1 <= d <= 3)%nat -> (d <= K)%nat -> forall tol c,
  exists c2, shift_over_knot tol c b = Some c2.
Proof.
  intros D1 DK tol c. apply (shift_over_knot_works tol b c eq_wf eq_clamped eq_mult); [apply D1|].
  change (degree b) with d. apply (eq_greville D1 DK).
Qed.
Theorem extrapolate_equidistant_works : (1 <= d <= 3)%nat -> (d <= K)%nat -> forall tol e c, 0 < e ->
  exists c2, extrapolate tol c e b = Some c2.
Proof.
  intros D1 DK tol e c E0. apply (extrapolate_works tol b e c eq_wf eq_clamped E0 eq_mult); [apply D1|].
  change (degree b) with d. apply (eq_greville D1 DK).
Qed.
End Equi.
