(** Proofs about concat_splines: the number of knots that is kept, the trajectory
    stored for the two segment-wise problems. *)
From Coq Require Import Reals Lra Lia List Permutation Arith ZArith.
From Verif Require Import Blossom Spline_Model Spline_Spec Spline_Proofs Spline_Proofs2 Spline_Proofs3 Spline_Proofs5
  Splop_Model Splop_Spec Splop_Proofs Splop_Proofs2 Span_Proofs End_Proofs Contact_Proofs
  Multi_Model Multi_Spec Multi_Proofs Concat_Model Concat_Spec Concat_Proofs Concat_Proofs2 Concat_Proofs3 Concat_Proofs4
  Concat_Proofs5.
Import ListNotations.
Local Open Scope R_scope.

(** ** the continuity test *)
Lemma same_equal : forall v, same_value v v = if Req_EM_T v 0 then false else true.
Proof.
  intros v. unfold same_value, Reqb, Rleb. destruct (Req_EM_T v 0) as [->|N].
  - destruct (Req_EM_T (0 + 0) 0); [reflexivity|lra].
  - destruct (Req_EM_T (v + v) 0); [lra|].
    replace (v - v) with 0 by ring. rewrite Rabs_R0.
    destruct (Rle_dec (0 * (5 / 10) / (v + v)) (1 / 1000)) as [|F]; [reflexivity|].
    exfalso. apply F. unfold Rdiv. rewrite !Rmult_0_l. lra.
Qed.
Lemma same_negative : forall v1 v2, v1 + v2 < 0 -> same_value v1 v2 = true.
Proof.
  intros v1 v2 H. unfold same_value, Reqb, Rleb. destruct (Req_EM_T (v1 + v2) 0); [lra|].
  destruct (Rle_dec _ (1 / 1000)) as [|F]; [reflexivity|]. exfalso. apply F.
  apply Rle_trans with 0; [|lra].
  assert (K : / (v1 + v2) < 0) by (apply Rinv_lt_0_compat; lra).
  pose proof (Rabs_pos (v1 - v2)). unfold Rdiv.
  assert (0 <= Rabs (v1 - v2) * (5 * / 10)) by (apply Rmult_le_pos; lra).
  rewrite <- (Ropp_involutive (/ (v1 + v2))). rewrite Ropp_mult_distr_r_reverse.
  assert (0 <= Rabs (v1 - v2) * (5 * / 10) * - / (v1 + v2)) by (apply Rmult_le_pos; lra). lra.
Qed.
Lemma same_positive : forall v1 v2, 0 < v1 + v2 ->
  (same_value v1 v2 = true <-> Rabs (v1 - v2) <= 2 / 1000 * (v1 + v2)).
Proof.
  intros v1 v2 H. unfold same_value, Reqb, Rleb. destruct (Req_EM_T (v1 + v2) 0); [lra|].
  assert (E : Rabs (v1 - v2) * (5 / 10) = (Rabs (v1 - v2) * (5 / 10) / (v1 + v2)) * (v1 + v2)) by (field; lra).
  destruct (Rle_dec _ (1 / 1000)) as [L|F]; split; intros X; auto; try discriminate.
  - apply (Rmult_le_compat_r (v1 + v2)) in L; lra.
  - exfalso. apply F. apply (Rmult_le_reg_r (v1 + v2)); lra.
Qed.

(** ** the number of knots *)
Lemma count_range : forall ds n next prev t,
  (n - Z.of_nat (length ds) <= count_insert ds n next prev t <= n)%Z.
Proof.
  induction ds as [|d ds IH]; intros n next prev t; simpl count_insert; [simpl; lia|].
  destruct (same_value _ _); [|simpl; lia].
  pose proof (IH (n - 1)%Z next prev t). simpl length. lia.
Qed.
Theorem computed_range : forall prev s T t,
  (0 <= computed_insert prev s T t <= Z.of_nat (degree (sbasis prev)) + 1)%Z.
Proof.
  intros. unfold computed_insert. cbv zeta.
  pose proof (count_range (seq 0 (degree (sbasis prev) + 1)) (Z.of_nat (degree (sbasis prev)) + 1) (scale s T t) prev t) as K.
  rewrite seq_length in K. lia.
Qed.

Lemma count_first : forall k a n m next prev t, (k < m)%nat ->
  (forall d, (a <= d < a + k)%nat -> same_value (call (derivative next d) t) (call (derivative prev d) t) = true) ->
  same_value (call (derivative next (a + k)) t) (call (derivative prev (a + k)) t) = false ->
  count_insert (seq a m) n next prev t = (n - Z.of_nat k)%Z.
Proof.
  induction k as [|k IH]; intros a n m next prev t Hm H1 H2; destruct m as [|m]; try lia; cbn [seq count_insert].
  - rewrite Nat.add_0_r in H2. rewrite H2. simpl. lia.
  - rewrite H1 by lia. rewrite (IH (Datatypes.S a)).
    + lia.
    + lia.
    + intros d Hd. apply H1. lia.
    + replace (Datatypes.S a + k)%nat with (a + Datatypes.S k)%nat by lia. exact H2.
Qed.
Lemma count_all : forall m a n next prev t,
  (forall d, (a <= d < a + m)%nat -> same_value (call (derivative next d) t) (call (derivative prev d) t) = true) ->
  count_insert (seq a m) n next prev t = (n - Z.of_nat m)%Z.
Proof.
  induction m as [|m IH]; intros a n next prev t H; cbn [seq count_insert]; [simpl; lia|].
  rewrite H by lia. rewrite IH; [lia|]. intros d Hd. apply H. lia.
Qed.

Lemma scale_values : forall p s1 T1 s2 T2 d, proper p s1 -> proper p s2 -> 0 < T1 -> 0 < T2 -> (d <= p)%nat ->
  call (derivative (scale s1 T1 0) d) T1 = in_seconds s1 T1 d T1 /\
  call (derivative (scale s2 T2 T1) d) T1 = in_seconds s2 T2 d 0.
Proof.
  intros p s1 T1 s2 T2 d (C1 & Z1 & D1) (C2 & Z2 & D2) H1 H2 Hd. split.
  - apply (first_scaled s1 T1 p); auto.
  - unfold in_seconds. replace (0 / T2) with 0 by (field; lra).
    rewrite <- (scale_deriv_call s2 T2 T1 d 0 H2 ltac:(lia) (proj1 C2) Z2). f_equal. ring.
Qed.

Theorem computed_first : forall p s1 T1 s2 T2 k, proper p s1 -> proper p s2 -> 0 < T1 -> 0 < T2 -> (k <= p)%nat ->
  (forall d, (d < k)%nat -> same_value (in_seconds s2 T2 d 0) (in_seconds s1 T1 d T1) = true) ->
  same_value (in_seconds s2 T2 k 0) (in_seconds s1 T1 k T1) = false ->
  computed_insert (scale s1 T1 0) s2 T2 T1 = Z.of_nat (p + 1 - k).
Proof.
  intros p s1 T1 s2 T2 k P1 P2 H1 H2 Hk A B. unfold computed_insert. cbv zeta.
  change (degree (sbasis (scale s1 T1 0))) with (degree (sbasis s1)).
  assert (D1 : degree (sbasis s1) = p) by apply P1. rewrite D1.
  rewrite (count_first k).
  - lia.
  - lia.
  - intros d Hd. destruct (scale_values p s1 T1 s2 T2 d P1 P2 H1 H2 ltac:(lia)) as [-> ->]. apply A. lia.
  - cbn [plus]. destruct (scale_values p s1 T1 s2 T2 k P1 P2 H1 H2 ltac:(lia)) as [-> ->]. exact B.
Qed.
Theorem computed_none : forall p s1 T1 s2 T2, proper p s1 -> proper p s2 -> 0 < T1 -> 0 < T2 ->
  (forall d, (d <= p)%nat -> same_value (in_seconds s2 T2 d 0) (in_seconds s1 T1 d T1) = true) ->
  computed_insert (scale s1 T1 0) s2 T2 T1 = 0%Z.
Proof.
  intros p s1 T1 s2 T2 P1 P2 H1 H2 A. unfold computed_insert. cbv zeta.
  change (degree (sbasis (scale s1 T1 0))) with (degree (sbasis s1)).
  assert (D1 : degree (sbasis s1) = p) by apply P1. rewrite D1.
  rewrite count_all; [lia|].
  intros d Hd. destruct (scale_values p s1 T1 s2 T2 d P1 P2 H1 H2 ltac:(lia)) as [-> ->]. apply A. lia.
Qed.

(** ** the sites and the joints, for all joints *)
Lemma regular_proper : forall p m segs, regular_segments p m segs -> proper_segments p m segs.
Proof.
  intros p m segs H. unfold proper_segments. induction H as [|sg segs [L F] _ IH]; constructor; auto.
  split; [exact L|]. clear L IH. induction F as [|s sg (C & Z & D & _) _ IH]; constructor; auto. repeat split; auto; apply C.
Qed.

Lemma joined_clamped : forall p n ks lo tau s T, clamped_on (mkB ks p) lo tau -> proper p s -> 0 < T ->
  (1 <= n <= p + 1)%nat ->
  clamped_on (mkB (joined_knots p n ks s T) p) lo (tau + T) /\
  mkB (joined_knots p n ks s T) p = jbasis (mkS (mkB ks p) []) (scale s T tau) p n.
Proof.
  intros p n ks lo tau s T C (CS & ZS & DS) HT Hn.
  assert (E : mkB (joined_knots p n ks s T) p = jbasis (mkS (mkB ks p) []) (scale s T tau) p n).
  { pose proof (joined_knots_eq (mkS (mkB ks p) []) s p n lo tau T C) as J. cbn [sbasis knots] in J. rewrite J. reflexivity. }
  split; [|exact E]. rewrite E.
  apply (jb_clamped (mkS (mkB ks p) []) (scale s T tau) p n lo tau (tau + T)); try lia; auto.
  apply Q_clamped; auto.
Qed.

Lemma last_tau : forall b lo tau, clamped_on b lo tau -> last (knots b) 0 = tau.
Proof. intros b lo tau C. rewrite nth_last. apply C. Qed.

Lemma quadratic_joints : forall rest ks lo tau, clamped_on (mkB ks 2) lo tau ->
  Forall (fun q => proper 2 (fst q) /\ 0 < snd q) rest -> clear_joints 2 1 ks rest.
Proof.
  induction rest as [|[s T] rest IH]; intros ks lo tau C F; [exact I|].
  inversion F as [|? ? [P HT] F']; subst x l. cbn [fst snd] in P, HT.
  destruct (joined_clamped 2 1 ks lo tau s T C P HT ltac:(lia)) as [C' E].
  cbn [clear_joints]. split.
  - rewrite E. rewrite (last_tau (mkB ks 2) lo tau C : last ks 0 = tau).
    destruct P as (CS & ZS & DS).
    apply (quadratic_clear (mkS (mkB ks 2) []) s 2 1 lo tau T); auto; lia.
  - apply (IH _ lo (tau + T)); auto.
Qed.
Theorem quadratic_segments_clear : forall l, Forall (fun q => proper 2 (fst q) /\ 0 < snd q) l -> clear_segments 2 1 l.
Proof.
  intros [|[s T] rest] F; [exact I|]. inversion F as [|? ? [P HT] F']; subst x l. cbn [fst snd] in P, HT.
  cbn [clear_segments]. destruct P as (CS & ZS & DS).
  apply (quadratic_joints rest _ 0 T); [|exact F'].
  pose proof (first_scaled s T 2 CS ZS DS HT) as (C & _). unfold scale, scale_basis in C. cbn [sbasis] in C.
  rewrite DS in C. exact C.
Qed.

(** cubic splines *)
Lemma joined_inner : forall ks lo tau s T, clamped_on (mkB ks 3) lo tau -> proper 3 s -> 0 < T ->
  nth (length (joined_knots 3 1 ks s T) - 5) (joined_knots 3 1 ks s T) 0
  = nth (length (knots (sbasis s)) - 5) (knots (sbasis s)) 0 * T + tau.
Proof.
  intros ks lo tau s T C (CS & ZS & DS) HT.
  assert (LK : (8 <= length ks)%nat) by apply (proj1 C).
  assert (LS : (8 <= length (knots (sbasis s)))%nat) by (destruct CS as ((_ & L) & _); rewrite DS in L; lia).
  unfold joined_knots. rewrite (last_tau (mkB ks 3) lo tau C : last ks 0 = tau).
  change (3 + 1)%nat with 4%nat. rewrite app_length, map_length, firstn_length, skipn_length.
  replace (Nat.min (length ks - 4 + 1) (length ks)) with (length ks - 3)%nat by lia.
  assert (LF : length (firstn (length ks - 4 + 1) ks) = (length ks - 3)%nat) by (rewrite firstn_length; lia).
  destruct (Nat.eq_dec (length (knots (sbasis s))) 8) as [E8|N8].
  - rewrite app_nth1 by lia. rewrite nth_firstn by lia. rewrite E8.
    replace (length ks - 3 + (8 - 4) - 5)%nat with (length ks - 4)%nat by lia.
    change (8 - 5)%nat with 3%nat.
    assert (Z : nth 3 (knots (sbasis s)) 0 = 0).
    { destruct CS as (_ & (A & _) & B & _). rewrite DS in A. rewrite <- A. exact B. }
    rewrite Z. destruct C as (_ & (_ & A & _) & _ & B). cbn [knots degree] in A, B.
    replace (length ks - 3 - 1)%nat with (length ks - 4)%nat in A by lia. rewrite A, B. ring.
  - rewrite app_nth2 by lia. rewrite LF.
    rewrite (nth_indep _ 0 (0 * T + tau)) by (rewrite map_length, skipn_length; lia).
    rewrite (map_nth (fun k => k * T + tau)). rewrite nth_skipn. do 3 f_equal. lia.
Qed.

Lemma cubic_joints : forall rest q ks lo tau, clamped_on (mkB ks 3) lo tau ->
  tau - nth (length ks - 5) ks 0 = before_joint q ->
  Forall (fun q => proper 3 (fst q) /\ 0 < snd q) rest ->
  (clear_joints 3 1 ks rest <-> uneven (q :: rest)).
Proof.
  induction rest as [|[s T] rest IH]; intros q ks lo tau C EQ F; [simpl; tauto|].
  inversion F as [|? ? [P HT] F']; subst x l. cbn [fst snd] in P, HT.
  destruct (joined_clamped 3 1 ks lo tau s T C P HT ltac:(lia)) as [C' E].
  cbn [clear_joints]. change (uneven (q :: (s, T) :: rest)) with (before_joint q <> after_joint (s, T) /\ uneven ((s, T) :: rest)).
  assert (EQ' : tau + T - nth (length (joined_knots 3 1 ks s T) - 5) (joined_knots 3 1 ks s T) 0 = before_joint (s, T)).
  { rewrite (joined_inner ks lo tau s T C P HT). unfold before_joint. cbn [fst snd]. ring. }
  pose proof (IH (s, T) _ lo (tau + T) C' EQ' F') as R. rewrite R.
  assert (ST : In (last ks 0) (sites (mkB (joined_knots 3 1 ks s T) 3)) <-> before_joint q = after_joint (s, T)).
  { rewrite E. rewrite (last_tau (mkB ks 3) lo tau C : last ks 0 = tau). destruct P as (CS & ZS & DS).
    rewrite (cubic_site (mkS (mkB ks 3) []) s 3 1 lo tau T); auto; try lia.
    cbn [sbasis knots]. unfold after_joint. cbn [fst snd]. rewrite EQ. tauto. }
  rewrite ST. tauto.
Qed.
Theorem cubic_segments_clear : forall l, Forall (fun q => proper 3 (fst q) /\ 0 < snd q) l ->
  (clear_segments 3 1 l <-> uneven l).
Proof.
  intros [|[s T] rest] F; [simpl; tauto|]. inversion F as [|? ? [P HT] F']; subst x l. cbn [fst snd] in P, HT.
  cbn [clear_segments]. destruct P as (CS & ZS & DS).
  assert (LS : (8 <= length (knots (sbasis s)))%nat) by (destruct CS as ((_ & L) & _); rewrite DS in L; lia).
  apply (cubic_joints rest (s, T) _ 0 T).
  - pose proof (first_scaled s T 3 CS ZS DS HT) as (C & _). unfold scale, scale_basis in C. cbn [sbasis] in C.
    rewrite DS in C. exact C.
  - rewrite map_length. rewrite (nth_indep _ 0 (0 * T + 0)) by (rewrite map_length; lia).
    rewrite (map_nth (fun k => k * T + 0)). unfold before_joint. cbn [fst snd]. ring.
  - exact F'.
Qed.
