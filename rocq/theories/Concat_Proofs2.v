(** Proofs about the concatenation of two splines: the joined basis and the
    linear system. *)
From Coq Require Import Reals Lra Lia List Permutation Arith ZArith.
From Verif Require Import Blossom Spline_Model Spline_Spec Spline_Proofs Spline_Proofs2 Spline_Proofs3 Spline_Proofs5
  Splop_Model Splop_Spec Splop_Proofs Splop_Proofs2 Span_Proofs End_Proofs Contact_Proofs Concat_Model Concat_Proofs.
Import ListNotations.
Local Open Scope R_scope.

Section Joined.
Variables (P Q : bspline) (p n : nat) (lo tau hi : R).
Hypothesis CP : clamped_on (sbasis P) lo tau.
Hypothesis CQ : clamped_on (sbasis Q) tau hi.
Hypothesis ZP : sized P.
Hypothesis ZQ : sized Q.
Hypothesis DP : degree (sbasis P) = p.
Hypothesis DQ : degree (sbasis Q) = p.
Hypothesis Hn1 : (1 <= n)%nat.
Hypothesis Hn2 : (n <= p + 1)%nat.

Let kP := knots (sbasis P).
Let kQ := knots (sbasis Q).
Definition jbasis : bbasis :=
  mkB (firstn (length (knots (sbasis P)) - (p + 1) + n) (knots (sbasis P)) ++ skipn (p + 1) (knots (sbasis Q))) p.
Let a := (length (knots (sbasis P)) - (p + 1))%nat.

Let LP : (2 * p + 2 <= length (knots (sbasis P)))%nat.
Proof. destruct CP as ((_ & L) & _). rewrite DP in L. exact L. Qed.
Let LQ : (2 * p + 2 <= length (knots (sbasis Q)))%nat.
Proof. destruct CQ as ((_ & L) & _). rewrite DQ in L. exact L. Qed.

Lemma jb_len : length (knots jbasis) = (a + n + (length kQ - (p + 1)))%nat.
Proof.
  unfold jbasis, a, kQ. cbn [knots]. rewrite app_length, firstn_length, skipn_length. lia.
Qed.

Lemma jb_left : forall i, (i < a + n)%nat -> kn jbasis i = nth i kP 0.
Proof.
  intros i Hi. unfold kn, jbasis, a in *. cbn [knots]. rewrite app_nth1.
  - apply nth_firstn. lia.
  - rewrite firstn_length. lia.
Qed.

Lemma P_end : forall i, (a <= i < length kP)%nat -> nth i kP 0 = tau.
Proof.
  intros i Hi. destruct CP as ((ND & L) & (C1 & C2 & C3 & C4) & E1 & E2). rewrite DP in *.
  unfold a, kP in *.
  replace (length (knots (sbasis P)) - p - 1)%nat with a in * by (unfold a; lia).
  assert (X := ND a i ltac:(unfold a; lia) ltac:(lia)).
  assert (Y := ND i (length (knots (sbasis P)) - 1)%nat ltac:(lia) ltac:(lia)).
  lra.
Qed.
Lemma Q_start : forall i, (i <= p)%nat -> nth i kQ 0 = tau.
Proof.
  intros i Hi. destruct CQ as ((ND & L) & (C1 & C2 & C3 & C4) & E1 & E2). rewrite DQ in *.
  unfold kQ in *.
  assert (X := ND 0%nat i ltac:(lia) ltac:(lia)). assert (Y := ND i p ltac:(lia) ltac:(lia)). lra.
Qed.

Lemma jb_right : forall i, (a <= i)%nat -> kn jbasis i = nth (i - a + (p + 1 - n)) kQ 0.
Proof.
  intros i Hi. destruct (le_lt_dec (a + n) i) as [H|H].
  - unfold kn, jbasis. cbn [knots]. fold a.
    assert (LF : length (firstn (a + n) (knots (sbasis P))) = (a + n)%nat).
    { rewrite firstn_length. unfold a. lia. }
    rewrite app_nth2 by lia. rewrite LF. rewrite nth_skipn. fold kQ. f_equal. lia.
  - rewrite jb_left by exact H. rewrite P_end by (unfold a, kP in *; lia).
    rewrite Q_start by lia. reflexivity.
Qed.

Lemma jb_mid : forall i, (a <= i < a + n)%nat -> kn jbasis i = tau.
Proof. intros i Hi. rewrite jb_right by lia. apply Q_start. lia. Qed.
Lemma jb_below : forall i, (i < a)%nat -> kn jbasis i < tau.
Proof.
  intros i Hi. rewrite jb_left by lia. destruct CP as ((ND & L) & (C1 & C2 & C3 & C4) & E1 & E2).
  rewrite DP in *. unfold kP, a in *.
  assert (X := ND i (length (knots (sbasis P)) - p - 2)%nat ltac:(lia) ltac:(lia)).
  assert (Y := P_end (length (knots (sbasis P)) - p - 1) ltac:(unfold a, kP in *; lia)). unfold kP in Y. lra.
Qed.
Lemma jb_above : forall i, (a + n <= i)%nat -> (i < length (knots jbasis))%nat -> tau < kn jbasis i.
Proof.
  intros i Hi HL. rewrite jb_len in HL. rewrite jb_right by lia.
  destruct CQ as ((ND & L) & (C1 & C2 & C3 & C4) & E1 & E2). rewrite DQ in *. unfold kQ in *.
  assert (X := ND (p + 1)%nat (i - a + (p + 1 - n))%nat ltac:(lia) ltac:(lia)).
  assert (Y := Q_start p ltac:(lia)). unfold kQ in Y. lra.
Qed.

Lemma jb_sorted : nondecreasing (knots jbasis).
Proof.
  intros i j Hij HL. fold (kn jbasis i) (kn jbasis j).
  destruct (le_lt_dec a j) as [H|H].
  - destruct (le_lt_dec a i) as [G|G].
    + rewrite !jb_right by lia. rewrite jb_len in HL. apply CQ; unfold kQ in *; lia.
    + apply Rle_trans with tau; [left; apply jb_below; exact G|].
      destruct (le_lt_dec (a + n) j); [left; apply jb_above; assumption|rewrite jb_mid by lia; lra].
  - rewrite !jb_left by lia. apply CP; unfold a in *; lia.
Qed.

Lemma jb_clamped : clamped_on jbasis lo hi.
Proof.
  pose proof CP as ((ND & L) & (C1 & C2 & C3 & C4) & E1 & E2).
  pose proof CQ as ((ND' & L') & (C1' & C2' & C3' & C4') & E1' & E2'). rewrite DP, DQ in *.
  assert (dg : degree jbasis = p) by reflexivity.
  assert (A0 : (p + 1 <= a)%nat) by (unfold a; lia).
  split; [split; [exact jb_sorted|rewrite jb_len, dg; unfold kQ; lia]|].
  assert (G0 : nth 0 (knots jbasis) 0 = lo) by (fold (kn jbasis 0); rewrite jb_left by lia; exact E1).
  assert (GP : nth p (knots jbasis) 0 = lo) by (fold (kn jbasis p); rewrite jb_left by lia; unfold kP; lra).
  assert (H1 : nth (length (knots jbasis) - p - 1) (knots jbasis) 0 = hi).
  { fold (kn jbasis (length (knots jbasis) - p - 1)). rewrite jb_right; rewrite jb_len; unfold kQ; try lia.
    replace (a + n + (length (knots (sbasis Q)) - (p + 1)) - p - 1 - a + (p + 1 - n))%nat
      with (length (knots (sbasis Q)) - p - 1)%nat by lia. lra. }
  assert (H2 : nth (length (knots jbasis) - 1) (knots jbasis) 0 = hi).
  { fold (kn jbasis (length (knots jbasis) - 1)). rewrite jb_right; rewrite jb_len; unfold kQ; try lia.
    replace (a + n + (length (knots (sbasis Q)) - (p + 1)) - 1 - a + (p + 1 - n))%nat
      with (length (knots (sbasis Q)) - 1)%nat by lia. lra. }
  split; [unfold clamped; rewrite dg; split; [lra|]; split; [lra|]; split|split; assumption].
  - rewrite GP. fold (kn jbasis (p + 1)). rewrite jb_left by lia. unfold kP. lra.
  - rewrite H1. fold (kn jbasis (length (knots jbasis) - p - 2)).
    rewrite jb_right; rewrite jb_len; unfold kQ; try lia.
    replace (a + n + (length (knots (sbasis Q)) - (p + 1)) - p - 2 - a + (p + 1 - n))%nat
      with (length (knots (sbasis Q)) - p - 2)%nat by lia. lra.
Qed.

(** intervals of the joined basis *)
Lemma jb_int_left : forall J, actint jbasis J -> (J < a)%nat -> actint (sbasis P) J.
Proof.
  intros J (A & B & C) H. cbn [degree jbasis] in A. split; [rewrite DP; exact A|].
  split; [rewrite DP; unfold a in H; lia|]. rewrite !jb_left in C by lia. exact C.
Qed.
Lemma jb_int_right : forall J, actint jbasis J -> (a <= J)%nat -> (a + n - 1 <= J)%nat /\
  actint (sbasis Q) (J - a + (p + 1 - n)).
Proof.
  intros J (A & B & C) H. change (degree jbasis) with p in B.
  assert (G : (a + n - 1 <= J)%nat).
  { destruct (le_lt_dec (a + n - 1) J); [assumption|]. rewrite !jb_mid in C by lia. lra. }
  split; [exact G|]. rewrite jb_len in B. unfold kQ in B.
  split; [rewrite DQ; lia|]. split; [rewrite DQ; lia|].
  rewrite !jb_right in C by lia. unfold kn. fold kQ.
  replace (J + 1 - a + (p + 1 - n))%nat with (J - a + (p + 1 - n) + 1)%nat in C by lia. exact C.
Qed.

Definition jform (J : nat) : list R -> R :=
  if lt_dec J (length (knots (sbasis P)) - (p + 1)) then spiece P J
  else spiece Q (J - (length (knots (sbasis P)) - (p + 1)) + (p + 1 - n)).

Lemma jform_left : forall J, (J < a)%nat -> jform J = spiece P J.
Proof. intros J H. unfold jform. fold a. destruct (lt_dec J a); [reflexivity|lia]. Qed.
Lemma jform_right : forall J, (a <= J)%nat -> jform J = spiece Q (J - a + (p + 1 - n)).
Proof. intros J H. unfold jform. fold a. destruct (lt_dec J a); [lia|reflexivity]. Qed.

Lemma spiece_sym : forall s J, nondecreasing (knots (sbasis s)) -> degree (sbasis s) = p ->
  actint (sbasis s) J -> symaff p (spiece s J).
Proof.
  intros s J ND D A. unfold spiece. rewrite D. apply piece_symaff.
  - rewrite <- D. apply A.
  - rewrite <- D. apply actint_pos; assumption.
Qed.

Lemma act_deg : forall s J, nondecreasing (knots (sbasis s)) -> degree (sbasis s) = p ->
  actint (sbasis s) J -> (p <= J)%nat /\ actpos p (kn (sbasis s)) J.
Proof.
  intros s J ND D A. split; [rewrite <- D; apply A|]. rewrite <- D. apply actint_pos; assumption.
Qed.

Lemma last_int_P : lastint (sbasis P) = (a - 1)%nat.
Proof. unfold lastint, a. rewrite DP. lia. Qed.

Hypothesis AGREE : forall d, (d + n <= p)%nat -> call (derivative P d) tau = call (derivative Q d) tau.

Lemma joint_agree : (n <= p)%nat -> forall vs, (n + length vs = p)%nat ->
  spiece P (a - 1) (repeat tau n ++ vs) = spiece Q p (repeat tau n ++ vs).
Proof.
  intros Hn vs L. destruct (last_active _ _ _ tau CP) as (X1 & X2 & X3 & _).
  { split; [apply (last_below _ _ _ CP)|lra]. }
  rewrite last_int_P in X1, X2, X3.
  apply (contact (p - n) n); try lia.
  - replace (p - n + n)%nat with p by lia. apply spiece_sym; [apply CP|exact DP|]. split; [exact X1|]. split; assumption.
  - replace (p - n + n)%nat with p by lia. apply spiece_sym; [apply CQ|exact DQ|].
    destruct (first_active _ _ _ CQ) as (Y1 & Y2 & Y3 & _). rewrite DQ in Y1, Y2, Y3.
    rewrite <- DQ at 1. split; [rewrite DQ; lia|]. rewrite DQ. split; assumption.
  - intros j Hj. replace (p - n + n - j)%nat with (p - j)%nat by lia.
    assert (E := AGREE j ltac:(lia)).
    rewrite (deriv_at_end P lo tau j CP ZP) in E by lia.
    rewrite (deriv_at_start Q tau hi j CQ ZQ) in E by lia.
    rewrite DP, DQ, last_int_P in E.
    apply Rmult_eq_reg_l in E; [exact E|]. assert (F := falling_pos j p ltac:(lia)). lra.
Qed.

Lemma jform_joins : joins jbasis (degree jbasis) jform.
Proof.
  change (degree jbasis) with p. split.
  - intros J A. destruct (le_lt_dec a J) as [H|H].
    + rewrite jform_right by exact H. apply spiece_sym; [apply CQ|exact DQ|apply (jb_int_right J A H)].
    + rewrite jform_left by exact H. apply spiece_sym; [apply CP|exact DP|apply (jb_int_left J A H)].
  - intros J m t vs (A1 & A2 & M & K) L.
    destruct (le_lt_dec a J) as [H|H].
    + rewrite !jform_right by lia.
      destruct (jb_int_right J A1 H) as [G1 B1]. destruct (jb_int_right (J + m) A2 ltac:(lia)) as [G2 B2].
      replace (J + m - a + (p + 1 - n))%nat with (J - a + (p + 1 - n) + m)%nat in * by lia.
      destruct (act_deg Q _ (proj1 (proj1 CQ)) DQ B1) as [U1 V1].
      destruct (act_deg Q _ (proj1 (proj1 CQ)) DQ B2) as [U2 V2].
      unfold spiece. rewrite DQ. apply adjacent_pieces; auto.
      intros j Hj. rewrite <- (K (j + a + n - p - 1)%nat) by lia.
      rewrite jb_right by lia. unfold kn, kQ. f_equal. lia.
    + destruct (le_lt_dec a (J + m)) as [G|G].
      * assert (JE : J = (a - 1)%nat).
        { destruct (Nat.eq_dec J (a - 1)) as [E|E]; [exact E|exfalso].
          assert (X := jb_below (a - 1)%nat ltac:(lia)). rewrite (K (a - 1)%nat) in X by lia.
          assert (Y := jb_mid a ltac:(lia)). rewrite (K a) in Y by lia. lra. }
        assert (TE : t = tau) by (rewrite <- (K a) by lia; apply jb_mid; lia).
        assert (ME : m = n).
        { destruct A2 as (_ & B2 & C2). change (degree jbasis) with p in B2.
          rewrite (K (J + m)%nat) in C2 by lia.
          destruct (le_lt_dec (a + n) (J + m)) as [F|F].
          - assert (X := jb_above (J + m)%nat F ltac:(lia)). rewrite (K (J + m)%nat) in X by lia. lra.
          - destruct (le_lt_dec (a + n) (J + m + 1)) as [F'|F']; [lia|].
            rewrite jb_mid in C2 by lia. lra. }
        subst t m. subst J. rewrite jform_left by lia. rewrite jform_right by lia.
        replace (a - 1 + n - a + (p + 1 - n))%nat with p by (unfold a in *; lia).
        apply joint_agree; lia.
      * rewrite !jform_left by lia.
        pose proof (jb_int_left J A1 H) as B1. pose proof (jb_int_left (J + m) A2 G) as B2.
        destruct (act_deg P _ (proj1 (proj1 CP)) DP B1) as [U1 V1].
        destruct (act_deg P _ (proj1 (proj1 CP)) DP B2) as [U2 V2].
        unfold spiece. rewrite DP. apply adjacent_pieces; auto.
        intros j Hj. rewrite <- (K j) by lia. rewrite jb_left by lia. reflexivity.
Qed.

Definition jspline : bspline := mkS jbasis (span_coeffs jbasis jform).

Lemma lo_tau : lo < tau.
Proof. apply (clamped_count _ _ _ CP). Qed.
Lemma tau_hi : tau < hi.
Proof. apply (clamped_count _ _ _ CQ). Qed.

Theorem jspline_call : forall x, lo <= x <= hi ->
  call jspline x = if Rle_dec x tau then call P x else call Q x.
Proof.
  intros x Hx. destruct (active_exists jbasis x (proj1 jb_clamped)) as [J A].
  { apply (clamped_in _ _ _ _ jb_clamped). exact Hx. }
  unfold jspline. rewrite (span_call jbasis jform x J jb_sorted jform_joins A).
  change (degree jbasis) with p.
  pose proof (actint_active _ _ _ A) as AI.
  destruct A as (A1 & A2 & A3 & A4). change (degree jbasis) with p in *.
  assert (AP := p). assert (A0 : (p < a)%nat) by (unfold a; lia).
  destruct (le_lt_dec a J) as [H|H].
  - destruct (jb_int_right J AI H) as [G B]. destruct A4 as [[X1 X2]|[_ [_ X]]]; [|lia].
    assert (TX : tau < x).
    { apply Rle_lt_trans with (kn jbasis J); [|exact X1].
      destruct (le_lt_dec (a + n) J); [left; apply jb_above; [assumption|lia]|rewrite jb_mid by lia; lra]. }
    destruct (Rle_dec x tau) as [F|_]; [lra|].
    rewrite jform_right by exact H.
    assert (C : active (sbasis Q) x (J - a + (p + 1 - n))).
    { destruct B as (B1 & B2 & B3). apply active_inside; [exact B1|exact B2|].
      rewrite !jb_right in X1, X2 by lia. unfold kn. fold kQ. split; [exact X1|].
      replace (J + 1 - a + (p + 1 - n))%nat with (J - a + (p + 1 - n) + 1)%nat in X2 by lia. exact X2. }
    assert (K := call_piece Q x _ (proj1 (proj1 CQ)) ZQ C). rewrite DQ in K.
    unfold spiece. rewrite DQ. symmetry. exact K.
  - pose proof (jb_int_left J AI H) as B.
    assert (TX : x <= tau).
    { apply Rle_trans with (kn jbasis (J + 1)).
      - destruct A4 as [[X1 X2]|[X1 _]]; [exact X2|lra].
      - destruct (Nat.eq_dec (J + 1) a) as [E|E]; [rewrite E, jb_mid by lia; lra|left; apply jb_below; lia]. }
    destruct (Rle_dec x tau) as [_|F]; [|lra].
    rewrite jform_left by exact H.
    assert (C : active (sbasis P) x J).
    { destruct B as (B1 & B2 & B3). split; [exact B1|]. split; [exact B2|]. split; [exact B3|].
      rewrite !jb_left in A4 by lia. rewrite DP. exact A4. }
    assert (K := call_piece P x _ (proj1 (proj1 CP)) ZP C). rewrite DP in K.
    unfold spiece. rewrite DP. symmetry. exact K.
Qed.
End Joined.

(** ** the evaluation sites *)
Lemma move_first_in : forall g x, In x (move_first g) -> In x g \/
  exists u v, In u g /\ In v g /\ x = u + (v - u) * (1 / 100).
Proof.
  intros [|u [|v r]] x H; auto. simpl in H. destruct H as [H|[H|H]].
  - right. exists u, v. simpl. auto.
  - left. simpl. auto.
  - left. simpl. auto.
Qed.
Lemma move_last_in : forall g x, In x (move_last g) -> In x g \/
  exists u v, In u g /\ In v g /\ x = u - (u - v) * (1 / 100).
Proof.
  intros g x H. unfold move_last in H. destruct (rev g) as [|u [|v r]] eqn:E; auto.
  apply in_rev in H.
  assert (I : forall y, In y (u :: v :: r) -> In y g) by (intros y Hy; apply in_rev; rewrite E; exact Hy).
  simpl in H. destruct H as [H|[H|H]].
  - right. exists u, v. repeat split; auto; apply I; simpl; auto.
  - left. apply I. simpl. auto.
  - left. apply I. simpl. auto.
Qed.
Lemma sites_range : forall b lo hi x, clamped_on b lo hi -> (1 <= degree b)%nat -> In x (sites b) -> lo <= x <= hi.
Proof.
  intros b lo hi x C Hd.
  assert (G : forall x, In x (greville b) -> lo <= x <= hi).
  { intros y Hy. apply (In_nth _ _ 0) in Hy. destruct Hy as [i [Hi E]].
    unfold greville in Hi. rewrite map_length, seq_length in Hi.
    assert (B := greville_bounds b i (proj1 C) Hd Hi). rewrite E in B.
    destruct (clamped_count _ _ _ C) as (_ & _ & _ & IN).
    unfold blen in Hi.
    assert (I1 := IN _ (nth_In (knots b) 0 (n := i + 1) ltac:(lia))).
    assert (I2 := IN _ (nth_In (knots b) 0 (n := i + degree b) ltac:(lia))). lra. }
  assert (F : forall x, In x (move_first (greville b)) -> lo <= x <= hi).
  { intros y Hy. destruct (move_first_in _ _ Hy) as [H|(u & v & Hu & Hv & ->)]; [auto|].
    apply G in Hu. apply G in Hv. lra. }
  intros Hx. destruct (move_last_in _ _ Hx) as [H|(u & v & Hu & Hv & ->)]; [auto|].
  apply F in Hu. apply F in Hv. lra.
Qed.

(** ** the joined spline solves the system *)
Theorem system_solution : forall P Q p n lo tau hi c,
  clamped_on (sbasis P) lo tau -> clamped_on (sbasis Q) tau hi -> sized P -> sized Q ->
  degree (sbasis P) = p -> degree (sbasis Q) = p -> (1 <= n <= p)%nat -> 
  (forall d, (d + n <= p)%nat -> call (derivative P d) tau = call (derivative Q d) tau) ->
  ~ In tau (sites (jbasis P Q p n)) ->
  gsolve (blen (jbasis P Q p n)) (concat_system (jbasis P Q p n) P Q) = Some c ->
  c = span_coeffs (jbasis P Q p n) (jform P Q p n).
Proof.
  intros P Q p n lo tau hi c CP CQ ZP ZQ DP DQ Hn AG NT G.
  set (b := jbasis P Q p n) in *.
  assert (LEN : forall r, In r (concat_system b P Q) -> length (fst r) = blen b).
  { intros r Hr. unfold concat_system in Hr. apply in_map_iff in Hr. destruct Hr as (x & <- & _).
    apply blen_eval. }
  destruct (gsolve_spec _ _ _ LEN G) as [_ U].
  symmetry. apply U.
  { pose proof (span_sized b (jform P Q p n)) as S. unfold sized in S. exact S. }
  apply Forall_forall. intros r Hr. unfold concat_system in Hr. apply in_map_iff in Hr.
  destruct Hr as (x & <- & Hx). unfold holds_row. cbn [fst snd].
  assert (CB := jb_clamped P Q p n lo tau hi CP CQ DP DQ ltac:(lia) ltac:(lia)). fold b in CB.
  assert (RX := sites_range b lo hi x CB ltac:(change (degree b) with p; lia) Hx).
  assert (K := jspline_call P Q p n lo tau hi CP CQ ZP ZQ DP DQ ltac:(lia) ltac:(lia) AG x RX).
  unfold jspline, call at 1 in K. cbn [sbasis coeffs] in K. fold b in K. rewrite K.
  destruct (Rle_dec x tau) as [L|L].
  - rewrite (clamped_outside Q tau hi x CQ ZQ). { ring. }
    intros [Y _]. apply NT. replace tau with x by lra. exact Hx.
  - rewrite (clamped_outside P lo tau x CP ZP). { ring. }
    intros [_ Y]. lra.
Qed.
