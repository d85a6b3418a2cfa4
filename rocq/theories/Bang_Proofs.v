(* Proofs about the bang-bang jerk guess. *)
From Coq Require Import Reals Lra Lia List Arith Bool.
From Verif Require Import Spline_Model Spline_Spec Spline_Proofs Spline_Proofs2 Spline_Proofs3 Gmove_Model Bang_Model.
Import ListNotations.
Local Open Scope R_scope.

(* ---------- the jerk coefficients ---------- *)

Lemma n_four : forall n, n = (4 * (n / 4) + n mod 4)%nat /\ (n mod 4 < 4)%nat.
Proof. intros n. split; [apply Nat.div_mod; lia|apply Nat.mod_upper_bound; lia]. Qed.

Lemma jerk_length : forall n j, length (jerk_coeffs n j) = n.
Proof.
  intros n j. destruct (n_four n) as (E & L). unfold jerk_coeffs.
  destruct (n mod 4)%nat as [|[|[|[|k]]]]; try lia;
    rewrite !app_length, !repeat_length; simpl length; lia.
Qed.
Lemma total_app : forall l l', total (l ++ l') = total l + total l'.
Proof. induction l as [|x l IH]; intros l'; simpl; [lra|]. unfold total in *. simpl. rewrite IH. lra. Qed.
Lemma total_repeat : forall x n, total (repeat x n) = INR n * x.
Proof. intros x n. induction n as [|n IH]; [unfold total; simpl; ring|]. unfold total in *. cbn [repeat fold_right]. rewrite IH, S_INR. ring. Qed.
Lemma jerk_total : forall n j, total (jerk_coeffs n j) = 0.
Proof.
  intros n j. unfold jerk_coeffs. set (m := (n / 4)%nat).
  assert (Z : total [0] = 0) by (unfold total; simpl; ring).
  destruct (n mod 4)%nat as [|[|[|k]]]; rewrite !total_app, ?total_repeat, ?Z, ?mult_INR; simpl (INR 2); ring.
Qed.
Lemma rev_repeat : forall (x : R) n, rev (repeat x n) = repeat x n.
Proof.
  intros x n. induction n as [|n IH]; [reflexivity|]. cbn [repeat rev]. rewrite IH.
  clear IH. induction n as [|n IH]; [reflexivity|]. cbn [repeat app]. rewrite IH. reflexivity.
Qed.
Lemma jerk_symmetric : forall n j, rev (jerk_coeffs n j) = jerk_coeffs n j.
Proof.
  intros n j. unfold jerk_coeffs. set (m := (n / 4)%nat).
  destruct (n mod 4)%nat as [|[|[|k]]]; rewrite !rev_app_distr, ?rev_repeat; cbn [rev app]; rewrite <- ?app_assoc; cbn [app];
    repeat (rewrite <- app_assoc; cbn [app]); reflexivity.
Qed.
Lemma jerk_values : forall n j c, In c (jerk_coeffs n j) -> c = j \/ c = - j \/ c = 0.
Proof.
  intros n j c H. unfold jerk_coeffs in H. set (m := (n / 4)%nat) in *.
  destruct (n mod 4)%nat as [|[|[|k]]]; repeat (apply in_app_or in H; destruct H as [H|H]);
    try (apply repeat_spec in H; auto); try (destruct H as [H|[]]; auto).
Qed.
Lemma jerk_first : forall n j, (4 <= n)%nat -> hd 0 (jerk_coeffs n j) = j.
Proof.
  intros n j H. destruct (n_four n) as (E & L). assert (M : (1 <= n / 4)%nat) by (apply Nat.div_le_lower_bound; lia).
  unfold jerk_coeffs. destruct (n / 4)%nat as [|m]; [lia|]. destruct (n mod 4)%nat as [|[|[|k]]]; reflexivity.
Qed.
Lemma jerk_short : forall n j, (n < 4)%nat -> Forall (fun c => c = 0) (jerk_coeffs n j).
Proof.
  intros n j H. destruct n as [|[|[|[|n]]]]; try lia; unfold jerk_coeffs; simpl; repeat constructor.
Qed.

(* ---------- the end coefficients ---------- *)

Lemma set_nth_length : forall k x l, (k < length l)%nat -> length (set_nth k x l) = length l.
Proof. intros k x l H. unfold set_nth. rewrite app_length. cbn [length]. rewrite firstn_length, skipn_length. lia. Qed.
Lemma set_nth_same : forall k x l d, (k < length l)%nat -> nth k (set_nth k x l) d = x.
Proof.
  intros k x l d H. unfold set_nth. rewrite app_nth2; rewrite firstn_length_le by lia; [|lia].
  rewrite Nat.sub_diag. reflexivity.
Qed.
Lemma firstn_nth : forall (l : list R) k i d, (i < k)%nat -> nth i (firstn k l) d = nth i l d.
Proof.
  induction l as [|y l IH]; intros k i d H; [rewrite firstn_nil; reflexivity|].
  destruct k as [|k]; [lia|]. cbn [firstn]. destruct i as [|i]; [reflexivity|]. cbn [nth]. apply IH. lia.
Qed.
Lemma nth_skipn' : forall (l : list R) k i d, nth i (skipn k l) d = nth (k + i) l d.
Proof.
  induction l as [|y l IH]; intros k i d; [rewrite skipn_nil; destruct i, k; reflexivity|].
  destruct k as [|k]; [reflexivity|]. cbn [skipn plus nth]. apply IH.
Qed.
Lemma set_nth_other : forall k x l i d, (k < length l)%nat -> i <> k -> nth i (set_nth k x l) d = nth i l d.
Proof.
  intros k x l i d H N. unfold set_nth. destruct (Nat.lt_ge_cases i k).
  - rewrite app_nth1 by (rewrite firstn_length_le; lia). apply firstn_nth. lia.
  - rewrite app_nth2; rewrite firstn_length_le by lia; [|lia].
    destruct (i - k)%nat as [|m] eqn:E; [lia|]. cbn [nth]. rewrite nth_skipn'. f_equal. lia.
Qed.

Lemma scaled_ends : forall pos x0 x1, (6 <= length pos)%nat ->
  let g := scaled_guess pos x0 x1 in
  length g = length pos /\
  (forall i, (i < 3)%nat -> nth i g 0 = x0) /\
  (forall i, (length pos - 3 <= i < length pos)%nat -> nth i g 0 = x1) /\
  (forall i, (3 <= i < length pos - 3)%nat -> nth i g 0 = nth i pos 0 / last pos 0 * (x1 - x0) + x0).
Proof.
  intros pos x0 x1 H g. unfold g, scaled_guess.
  set (f := fun c => c / last pos 0 * (x1 - x0) + x0). set (m := map f pos).
  assert (LM : length m = length pos) by apply map_length. rewrite LM. set (n := length pos) in *.
  set (g0 := set_nth 0 x0 m). assert (L0 : length g0 = n) by (unfold g0; rewrite set_nth_length; lia).
  set (g1 := set_nth 1 x0 g0). assert (L1 : length g1 = n) by (unfold g1; rewrite set_nth_length; lia).
  set (g2 := set_nth 2 x0 g1). assert (L2 : length g2 = n) by (unfold g2; rewrite set_nth_length; lia).
  set (g3 := set_nth (n - 3) x1 g2). assert (L3 : length g3 = n) by (unfold g3; rewrite set_nth_length; lia).
  set (g4 := set_nth (n - 2) x1 g3). assert (L4 : length g4 = n) by (unfold g4; rewrite set_nth_length; lia).
  split; [rewrite set_nth_length; lia|].
  assert (IN : forall i, (i < n - 3)%nat -> nth i (set_nth (n - 1) x1 g4) 0 = nth i g2 0).
  { intros i I. rewrite set_nth_other by lia. unfold g4. rewrite set_nth_other by lia. unfold g3. apply set_nth_other; lia. }
  split; [|split].
  - intros i I. rewrite IN by lia. destruct i as [|[|[|i]]]; [| | |lia]; unfold g2.
    + rewrite set_nth_other by lia. unfold g1. rewrite set_nth_other by lia. apply set_nth_same. lia.
    + rewrite set_nth_other by lia. apply set_nth_same. lia.
    + apply set_nth_same. lia.
  - intros i I. assert (C : (i = n - 1 \/ i = n - 2 \/ i = n - 3)%nat) by lia. destruct C as [-> | [-> | ->]].
    + apply set_nth_same. lia.
    + rewrite set_nth_other by lia. apply set_nth_same. lia.
    + rewrite set_nth_other by lia. unfold g4. rewrite set_nth_other by lia. apply set_nth_same. lia.
  - intros i I. rewrite IN by lia. unfold g2. rewrite set_nth_other by lia. unfold g1. rewrite set_nth_other by lia.
    unfold g0. rewrite set_nth_other by lia. unfold m. rewrite (nth_indep _ 0 (f 0)) by (rewrite map_length; lia).
    rewrite map_nth. reflexivity.
Qed.

(* ---------- the guess as a spline ---------- *)

Lemma cumul_length : forall b c n i acc, length (cumul b c i n acc) = n.
Proof. intros b c n. induction n as [|n IH]; intros i acc; [reflexivity|]. cbn [cumul length]. rewrite IH. reflexivity. Qed.
Lemma ri_length : forall s, (degree (sbasis s) + 1 <= length (knots (sbasis s)))%nat ->
  length (coeffs (running_integral s)) = S (blen (sbasis s)) /\
  blen (sbasis (running_integral s)) = S (blen (sbasis s)) /\
  length (knots (sbasis (running_integral s))) = (length (knots (sbasis s)) + 2)%nat /\
  degree (sbasis (running_integral s)) = (degree (sbasis s) + 1)%nat.
Proof.
  intros s H. unfold running_integral; cbn [coeffs sbasis knots degree]. cbn [length]. rewrite cumul_length.
  unfold blen; cbn [knots degree app length]. rewrite app_length. cbn [length]. repeat split; lia.
Qed.

Lemma slice_length : forall o (l : list R), (2 * o <= length l)%nat -> length (slice_oo o l) = (length l - 2 * o)%nat.
Proof. intros o l H. unfold slice_oo. rewrite firstn_length, skipn_length. lia. Qed.

Lemma bang_sized : forall b j, (3 <= degree b)%nat -> (6 + degree b <= length (knots b) - 1)%nat ->
  length (coeffs (bang_position b j)) = (length (knots b) - degree b - 1)%nat.
Proof.
  intros b j D L. unfold bang_position.
  assert (K : length (knots (jerk_basis b)) = (length (knots b) - 6)%nat)
    by (unfold jerk_basis; cbn [knots]; rewrite slice_length by lia; lia).
  assert (G : degree (jerk_basis b) = (degree b - 3)%nat) by reflexivity.
  set (s0 := mkS (jerk_basis b) (jerk_coeffs (blen (jerk_basis b)) j)).
  assert (K0 : length (knots (sbasis s0)) = (length (knots b) - 6)%nat) by exact K.
  assert (G0 : degree (sbasis s0) = (degree b - 3)%nat) by exact G.
  destruct (ri_length s0) as (_ & B1 & K1 & G1); [lia|].
  destruct (ri_length (running_integral s0)) as (_ & B2 & K2 & G2); [lia|].
  destruct (ri_length (running_integral (running_integral s0))) as (E & _); [lia|].
  rewrite E, B2, B1. unfold blen. rewrite K0, G0. lia.
Qed.

Lemma deriv1_flat : forall s i, (i + 1 < length (coeffs s))%nat ->
  nth i (coeffs s) 0 = nth (i + 1) (coeffs s) 0 -> nth i (coeffs (derivative s 1)) 0 = 0.
Proof.
  intros s i I E. cbn [derivative coeffs deriv_loop]. unfold deriv_step. rewrite nth_map_seq by lia.
  rewrite <- E. unfold Rdiv. ring.
Qed.

Lemma deriv1_clamped : forall s, (1 <= degree (sbasis s))%nat -> well_formed (sbasis s) -> clamped (sbasis s) ->
  clamped (sbasis (derivative s 1)).
Proof.
  intros s D [Hs Hl] (A & B & C & E). unfold clamped. rewrite deriv1_degree, deriv1_knots, length_trim.
  set (k := knots (sbasis s)) in *. set (d := degree (sbasis s)) in *. set (n := length k) in *.
  rewrite !nth_trim by lia.
  replace (S (d - 1)) with d by lia. replace (S (d - 1 + 1)) with (d + 1)%nat by lia.
  replace (S (n - 2 - (d - 1) - 1)) with (n - d - 1)%nat by lia.
  replace (S (n - 2 - 1)) with (n - 2)%nat by lia. replace (S (n - 2 - (d - 1) - 2)) with (n - d - 2)%nat by lia.
  pose proof (Hs 0%nat 1%nat ltac:(lia) ltac:(fold k n; lia)) as P1. pose proof (Hs 1%nat d ltac:(lia) ltac:(fold k n; lia)) as P2.
  pose proof (Hs (n - d - 1)%nat (n - 2)%nat ltac:(lia) ltac:(fold k n; lia)) as P3.
  pose proof (Hs (n - 2)%nat (n - 1)%nat ltac:(lia) ltac:(fold k n; lia)) as P4.
  fold k in P1, P2, P3, P4. repeat split; lra.
Qed.
Lemma deriv_clamped : forall o s, (o <= degree (sbasis s))%nat -> well_formed (sbasis s) -> sized s -> clamped (sbasis s) ->
  clamped (sbasis (derivative s o)).
Proof.
  induction o as [|o IH]; intros s O WF SZ CL; [exact CL|]. rewrite derivative_iter.
  destruct (deriv_inv o s ltac:(lia) WF SZ) as (A & B & C & _).
  apply deriv1_clamped; [lia|exact A|apply IH; auto; lia].
Qed.

(* value of a derivative at the ends of the domain *)
Lemma deriv_left : forall o s, (o <= degree (sbasis s))%nat -> well_formed (sbasis s) -> sized s -> clamped (sbasis s) ->
  call (derivative s o) (dom_left (sbasis s)) = nth 0 (coeffs (derivative s o)) 0.
Proof.
  intros o s O WF SZ CL. destruct (deriv_inv o s O WF SZ) as (A & B & C & DL & DR & _).
  destruct (deriv_clamped o s O WF SZ CL) as (C1 & C2 & C3 & C4).
  rewrite <- DL. unfold dom_left. rewrite <- C1.
  apply call_left_end; [exact A|exact B|exact C1|exact C3].
Qed.
Lemma deriv_right : forall o s, (o <= degree (sbasis s))%nat -> well_formed (sbasis s) -> sized s -> clamped (sbasis s) ->
  call (derivative s o) (dom_right (sbasis s)) = nth (length (coeffs (derivative s o)) - 1) (coeffs (derivative s o)) 0.
Proof.
  intros o s O WF SZ CL. destruct (deriv_inv o s O WF SZ) as (A & B & C & DL & DR & _).
  destruct (deriv_clamped o s O WF SZ CL) as (C1 & C2 & C3 & C4).
  rewrite <- DR. apply call_right_end; [exact A|exact B|exact C2|exact C4].
Qed.

Lemma deriv2_coeffs : forall s, derivative s 2 = derivative (derivative s 1) 1.
Proof. intros s. apply (derivative_iter s 1). Qed.

(* three equal coefficients at an end: rest *)
Lemma rest_left : forall s x0, (2 <= degree (sbasis s))%nat -> (3 <= length (coeffs s))%nat ->
  well_formed (sbasis s) -> sized s -> clamped (sbasis s) ->
  (forall i, (i < 3)%nat -> nth i (coeffs s) 0 = x0) ->
  call s (dom_left (sbasis s)) = x0 /\ call (derivative s 1) (dom_left (sbasis s)) = 0 /\
  call (derivative s 2) (dom_left (sbasis s)) = 0.
Proof.
  intros s x0 D L WF SZ CL E.
  assert (Z : forall i, (i < 2)%nat -> nth i (coeffs (derivative s 1)) 0 = 0).
  { intros i I. apply deriv1_flat; [lia|]. rewrite !E by lia. reflexivity. }
  split; [|split].
  - pose proof (deriv_left 0 s ltac:(lia) WF SZ CL) as F. cbn [derivative] in F. rewrite F. apply E. lia.
  - rewrite (deriv_left 1 s ltac:(lia) WF SZ CL). apply Z. lia.
  - rewrite (deriv_left 2 s ltac:(lia) WF SZ CL). rewrite deriv2_coeffs. apply deriv1_flat.
    + rewrite deriv1_len. lia.
    + rewrite !Z by lia. reflexivity.
Qed.
Lemma rest_right : forall s x1, (2 <= degree (sbasis s))%nat -> (3 <= length (coeffs s))%nat ->
  well_formed (sbasis s) -> sized s -> clamped (sbasis s) ->
  (forall i, (length (coeffs s) - 3 <= i < length (coeffs s))%nat -> nth i (coeffs s) 0 = x1) ->
  call s (dom_right (sbasis s)) = x1 /\ call (derivative s 1) (dom_right (sbasis s)) = 0 /\
  call (derivative s 2) (dom_right (sbasis s)) = 0.
Proof.
  intros s x1 D L WF SZ CL E.
  assert (Z : forall i, (length (coeffs s) - 3 <= i < length (coeffs s) - 1)%nat -> nth i (coeffs (derivative s 1)) 0 = 0).
  { intros i I. apply deriv1_flat; [lia|]. rewrite !E by lia. reflexivity. }
  split; [|split].
  - pose proof (deriv_right 0 s ltac:(lia) WF SZ CL) as F. cbn [derivative] in F. rewrite F. apply E. lia.
  - rewrite (deriv_right 1 s ltac:(lia) WF SZ CL). rewrite deriv1_len. apply Z. lia.
  - rewrite (deriv_right 2 s ltac:(lia) WF SZ CL). rewrite deriv2_coeffs. rewrite !deriv1_len. apply deriv1_flat.
    + rewrite deriv1_len. lia.
    + rewrite !Z by lia. reflexivity.
Qed.

Lemma bang_rest : forall b j x0 x1, well_formed b -> clamped b -> (3 <= degree b)%nat ->
  (6 <= length (knots b) - degree b - 1)%nat ->
  let s := bang_guess b j x0 x1 in
  sized s /\
  call s (dom_left b) = x0 /\ call (derivative s 1) (dom_left b) = 0 /\ call (derivative s 2) (dom_left b) = 0 /\
  call s (dom_right b) = x1 /\ call (derivative s 1) (dom_right b) = 0 /\ call (derivative s 2) (dom_right b) = 0.
Proof.
  intros b j x0 x1 WF CL D L s.
  pose proof (bang_sized b j D ltac:(lia)) as SZ.
  destruct (scaled_ends (coeffs (bang_position b j)) x0 x1 ltac:(lia)) as (LEN & A & B & _).
  assert (S1 : sized s) by (unfold sized, s, bang_guess; cbn [coeffs sbasis]; lia).
  destruct (rest_left s x0) as (L1 & L2 & L3); unfold s, bang_guess; cbn [coeffs sbasis]; auto; try lia.
  destruct (rest_right s x1) as (R1 & R2 & R3); unfold s, bang_guess; cbn [coeffs sbasis]; auto; try lia.
  { intros i I. apply B. lia. }
  unfold s, bang_guess in *. cbn [coeffs sbasis] in *. repeat split; assumption.
Qed.
