(** The exported vehicle evaluates the same splines as the Python vehicle. *)
From Coq Require Import Reals List Arith Bool ZArith Lia Lra.
From Verif Require Import Spline_Model Spline_Spec Spline_Proofs Spline_Proofs2 Spline_Proofs3
  Export_Model Export_Proofs Export_Proofs2 Cpp_Model Cpp_Spec Multi_Spec.
Import ListNotations.
Local Open Scope R_scope.

(** ---- knots ---- *)
Lemma write_block : forall (f : nat -> R) off n a (pre mid post : vec),
  length mid = n -> length pre = (off + a)%nat ->
  for_loop n a (fun j v => write v (off + j) (f j)) (pre ++ mid ++ post)
  = Some (pre ++ map f (seq a n) ++ post).
Proof.
  intros f off n. induction n as [|n IH]; intros a pre mid post L P.
  - destruct mid; [reflexivity|discriminate].
  - destruct mid as [|y mid]; [discriminate|]. cbn [for_loop].
    rewrite <- P. change (pre ++ (y :: mid) ++ post) with (pre ++ y :: (mid ++ post)). rewrite write_app.
    pose proof (IH (S a) (pre ++ [f a]) mid post ltac:(simpl in L; lia) ltac:(rewrite app_length; simpl; lia)) as E.
    rewrite <- !app_assoc in E. exact E.
Qed.

Lemma repeat_split : forall (x : R) a b, repeat x (a + b) = repeat x a ++ repeat x b.
Proof. intros x a b. induction a as [|a IH]; [reflexivity|]. simpl. rewrite IH. reflexivity. Qed.

Theorem knots_agree : forall deg ki, (1 <= ki)%nat -> cpp_knots deg ki = Some (py_knots deg ki).
Proof.
  intros deg ki K. unfold cpp_knots.
  assert (Z : for_loop deg 0 (fun d v => match write v d 0 with
          | Some v' => write v' (d + ki + deg + 1) 1 | None => None end) (repeat 0 (ki + 1 + 2 * deg))
      = Some (repeat 0 (deg + (ki + 1)) ++ repeat 1 deg)).
  { assert (G : forall n a, (a + n = deg)%nat ->
      for_loop n a (fun d v => match write v d 0 with
          | Some v' => write v' (d + ki + deg + 1) 1 | None => None end)
        (repeat 0 (deg + (ki + 1)) ++ repeat 1 a ++ repeat 0 n)
      = Some (repeat 0 (deg + (ki + 1)) ++ repeat 1 deg)).
    { induction n as [|n IH]; intros a A.
      - cbn [for_loop repeat]. rewrite app_nil_r. replace a with deg by lia. reflexivity.
      - cbn [for_loop].
        assert (W1 : write (repeat 0 (deg + (ki + 1)) ++ repeat 1 a ++ repeat 0 (S n)) a 0
           = Some (repeat 0 (deg + (ki + 1)) ++ repeat 1 a ++ repeat 0 (S n))).
        { replace (deg + (ki + 1))%nat with (a + S (deg - a + ki))%nat by lia. rewrite repeat_split, <- app_assoc.
          change (repeat 0 (S (deg - a + ki))) with (0 :: repeat 0 (deg - a + ki)). cbn [app].
          pose proof (write_app (repeat 0 a) (repeat 0 (deg - a + ki) ++ repeat 1 a ++ repeat 0 (S n)) 0 0) as W.
          rewrite repeat_length in W. exact W. }
        unfold vec in *. rewrite W1.
        assert (W2 : write (repeat 0 (deg + (ki + 1)) ++ repeat 1 a ++ repeat 0 (S n)) (a + ki + deg + 1) 1
           = Some (repeat 0 (deg + (ki + 1)) ++ repeat 1 (S a) ++ repeat 0 n)).
        { pose proof (write_app (repeat 0 (deg + (ki + 1)) ++ repeat 1 a) (repeat 0 n) 0 1) as W.
          rewrite app_length, !repeat_length in W. rewrite <- !app_assoc in W.
          replace (deg + (ki + 1) + a)%nat with (a + ki + deg + 1)%nat in W by lia.
          change (0 :: repeat 0 n) with (repeat 0 (S n)) in W. rewrite W.
          replace (S a) with (a + 1)%nat by lia. rewrite (repeat_split 1 a 1), <- app_assoc. reflexivity. }
        rewrite W2. apply IH. lia. }
    replace (ki + 1 + 2 * deg)%nat with (deg + (ki + 1) + deg)%nat by lia.
    rewrite repeat_split. apply (G deg 0%nat). lia. }
  unfold vec in *. rewrite Z. rewrite repeat_split, <- app_assoc.
  pose proof (write_block (fun j => INR j / INR ki) deg (ki + 1) 0 (repeat 0 deg) (repeat 0 (ki + 1)) (repeat 1 deg)
    ltac:(apply repeat_length) ltac:(rewrite repeat_length; lia)) as W.
  unfold vec in W. rewrite W. f_equal. unfold py_knots. f_equal. f_equal. apply map_ext. intro j. unfold Rdiv. ring.
Qed.

Lemma py_knots_length : forall deg ki, length (py_knots deg ki) = (ki + 1 + 2 * deg)%nat.
Proof. intros. unfold py_knots. rewrite !app_length, map_length, seq_length, !repeat_length. lia. Qed.

Lemma nth_repeat_lt : forall (x d : R) n i, (i < n)%nat -> nth i (repeat x n) d = x.
Proof. intros x d n. induction n as [|n IH]; intros i H; [lia|]. destruct i; [reflexivity|]. simpl. apply IH. lia. Qed.

Lemma py_knot_value : forall deg ki i, (1 <= ki)%nat -> (i < ki + 1 + 2 * deg)%nat ->
  nth i (py_knots deg ki) 0 = INR (Nat.min (i - deg) ki) / INR ki.
Proof.
  intros deg ki i K H. assert (KP : 0 < INR ki) by (apply lt_0_INR; lia). unfold py_knots.
  destruct (Nat.lt_ge_cases i deg) as [A|A].
  - rewrite app_nth1 by (rewrite repeat_length; exact A). rewrite nth_repeat_lt by exact A.
    replace (Nat.min (i - deg) ki) with 0%nat by lia. simpl. field. lra.
  - rewrite app_nth2 by (rewrite repeat_length; exact A). rewrite repeat_length.
    destruct (Nat.lt_ge_cases (i - deg) (ki + 1)) as [B|B].
    + rewrite app_nth1 by (rewrite map_length, seq_length; exact B).
      rewrite nth_map_seq by exact B. replace (Nat.min (i - deg) ki) with (i - deg)%nat by lia. field. lra.
    + rewrite app_nth2 by (rewrite map_length, seq_length; exact B). rewrite map_length, seq_length.
      rewrite nth_repeat_lt by lia. replace (Nat.min (i - deg) ki) with ki by lia. field. lra.
Qed.

Lemma py_knots_wf : forall deg ki, (1 <= ki)%nat ->
  well_formed (mkB (py_knots deg ki) deg) /\ clamped (mkB (py_knots deg ki) deg) /\
  nth 0 (py_knots deg ki) 0 = 0 /\ dom_left (mkB (py_knots deg ki) deg) = 0 /\ dom_right (mkB (py_knots deg ki) deg) = 1.
Proof.
  intros deg ki K. assert (KP : 0 < INR ki) by (apply lt_0_INR; lia).
  assert (L : dom_left (mkB (py_knots deg ki) deg) = 0).
  { unfold dom_left. cbn [knots degree]. rewrite py_knot_value by lia. rewrite Nat.sub_diag. simpl. field. lra. }
  assert (R : dom_right (mkB (py_knots deg ki) deg) = 1).
  { unfold dom_right. cbn [knots degree]. rewrite py_knots_length, py_knot_value by lia.
    replace (Nat.min (ki + 1 + 2 * deg - deg - 1 - deg) ki) with ki by lia. field. lra. }
  assert (Z : nth 0 (py_knots deg ki) 0 = 0).
  { rewrite py_knot_value by lia. replace (Nat.min (0 - deg) ki) with 0%nat by lia. simpl. field. lra. }
  split; [|split; [|split; [exact Z|split; [exact L|exact R]]]].
  - split; cbn [knots degree]; [|rewrite py_knots_length; lia].
    intros i j I J. rewrite py_knots_length in J. rewrite !py_knot_value by lia.
    apply Rmult_le_compat_r; [left; apply Rinv_0_lt_compat; exact KP|]. apply le_INR. lia.
  - unfold clamped. cbn [knots degree]. rewrite py_knots_length.
    split; [rewrite Z; symmetry; exact L|]. split; [|split].
    + rewrite !py_knot_value by lia. f_equal. f_equal. lia.
    + rewrite !py_knot_value by lia. apply Rmult_lt_compat_r; [apply Rinv_0_lt_compat; exact KP|]. apply lt_INR. lia.
    + rewrite !py_knot_value by lia. apply Rmult_lt_compat_r; [apply Rinv_0_lt_compat; exact KP|]. apply lt_INR. lia.
Qed.

(** ---- evaluation ---- *)
Lemma acc_rsum : forall n f, acc_sum n f = rsum n f.
Proof. induction n as [|n IH]; intro f; [reflexivity|]. simpl. rewrite IH. reflexivity. Qed.

Lemma table_row : forall ks deg x d i, (i + d + 1 < length ks)%nat ->
  nth i (basis_row (mkB ks deg) x d) 0 = cpp_table ks deg x d i.
Proof.
  intros ks deg x d. induction d as [|d IH]; intros i H.
  - cbn [basis_row cpp_table]. cbn [knots]. rewrite nth_map_seq by lia. unfold ind, kn. cbn [knots degree].
    rewrite Rmult_1_r. reflexivity.
  - cbn [basis_row cpp_table]. unfold next_row. cbn [knots]. rewrite nth_map_seq by lia. unfold kn. cbn [knots].
    rewrite !IH by lia. replace (0 * x) with 0 by ring. reflexivity.
Qed.

Theorem eval_agrees : forall s x, sized s ->
  evalSpline x (knots (sbasis s)) (coeffs s) (degree (sbasis s)) = call s x.
Proof.
  intros [[ks deg] c] x SZ. unfold evalSpline, call. cbn [sbasis knots degree coeffs] in *.
  unfold sized in SZ. cbn [sbasis knots degree coeffs] in SZ.
  rewrite dot_rsum by (rewrite eval_basis_length; cbn [knots degree]; symmetry; exact SZ).
  rewrite eval_basis_length, acc_rsum. cbn [knots degree]. apply rsum_ext. intros i Hi.
  unfold eval_basis. cbn [degree]. rewrite table_row by lia. ring.
Qed.

(** ---- derivative matrices ---- *)
Lemma rsum_swap : forall n m (f : nat -> nat -> R),
  rsum n (fun i => rsum m (fun j => f i j)) = rsum m (fun j => rsum n (fun i => f i j)).
Proof.
  intros n m f. induction n as [|n IH]; simpl.
  - symmetry. apply rsum_0. reflexivity.
  - rewrite IH, <- rsum_add. reflexivity.
Qed.

Lemma rsum_two : forall n j a b (f : nat -> R), (j + 1 < n)%nat ->
  rsum n (fun k => (if (k =? j)%nat then a else if (k =? j + 1)%nat then b else 0) * f k) = a * f j + b * f (j + 1)%nat.
Proof.
  intros n j a b f H.
  rewrite (rsum_ext n _ (fun k => (a * f k) * (if (k =? j)%nat then 1 else 0)
                              + (b * f k) * (if (k =? j + 1)%nat then 1 else 0))).
  - rewrite rsum_add, (rsum_delta n j (fun k => a * f k)), (rsum_delta n (j + 1) (fun k => b * f k)) by lia. reflexivity.
  - intros k _. destruct (Nat.eqb_spec k j), (Nat.eqb_spec k (j + 1)); try lia; ring.
Qed.

Lemma at2_map : forall (f : nat -> nat -> R) n m i j, (i < n)%nat -> (j < m)%nat ->
  at2 (map (fun a => map (fun b => f a b) (seq 0 m)) (seq 0 n)) i j = f i j.
Proof.
  intros f n m i j I J. unfold at2.
  rewrite (nth_indep _ [] (map (fun b => f 0%nat b) (seq 0 m))) by (rewrite map_length, seq_length; exact I).
  rewrite (map_nth (fun a => map (fun b => f a b) (seq 0 m)) (seq 0 n) 0%nat i).
  rewrite seq_nth by exact I. rewrite nth_map_seq by exact J. reflexivity.
Qed.

Lemma deriv_step_length : forall p ks c, length (deriv_step p ks c) = (length c - 1)%nat.
Proof. intros. unfold deriv_step. rewrite map_length, seq_length. reflexivity. Qed.

Lemma deriv_loop_length : forall o i deg ks c, length (deriv_loop o i deg ks c) = (length c - o)%nat.
Proof.
  induction o as [|o IH]; intros i deg ks c; cbn [deriv_loop]; [lia|]. rewrite IH, deriv_step_length. lia.
Qed.

(** row l of the i-th matrix applied to the coefficients *)
Theorem matrix_row : forall ks deg len c i l, length c = len -> len = (length ks - deg - 1)%nat ->
  (i <= deg)%nat -> (l + i < len)%nat ->
  rsum len (fun m => at2 (derivative_T ks deg len i) l m * nth m c 0) = nth l (deriv_loop i 0 deg ks c) 0.
Proof.
  intros ks deg len c i. induction i as [|i IH]; intros l LC LL ID LI.
  - cbn [derivative_T deriv_loop].
    rewrite (rsum_ext len _ (fun m => nth m c 0 * (if (m =? l)%nat then 1 else 0))).
    + apply rsum_delta. lia.
    + intros m Hm. rewrite at2_map by lia. ring.
  - cbn [derivative_T].
    set (T := der_factor (slice_oo (i + 1) ks) deg len i). set (D := derivative_T ks deg len i) in *.
    rewrite (rsum_ext len _ (fun m => rsum (len - i) (fun k => INR (deg - i) * at2 T l k * (at2 D k m * nth m c 0)))).
    2: { intros m Hm. rewrite at2_map by lia. rewrite acc_rsum, Rmult_comm, <- rsum_scal. apply rsum_ext. intros k _. ring. }
    rewrite rsum_swap.
    set (w := deriv_loop i 0 deg ks c) in *.
    set (delta := nth (deg - i + l) (slice_oo (i + 1) ks) 0 - nth l (slice_oo (i + 1) ks) 0).
    rewrite (rsum_ext (len - i) _ (fun k => (if (k =? l)%nat then -1 / delta else if (k =? l + 1)%nat then 1 / delta else 0)
         * (INR (deg - i) * nth k w 0))).
    2: { intros k Hk. rewrite rsum_scal. rewrite IH by lia. unfold T, der_factor. rewrite at2_map by lia. fold delta.
         destruct (k =? l)%nat; [unfold Rdiv; ring|]. ring. }
    rewrite rsum_two by lia.
    rewrite deriv_loop_snoc, iter_trim_slice. fold w.
    assert (LW : length w = (len - i)%nat) by (unfold w; rewrite deriv_loop_length; lia).
    unfold deriv_step. rewrite nth_map_seq by (rewrite LW; lia).
    replace (S i) with (i + 1)%nat by lia. cbn [plus]. replace (l + (deg - i))%nat with (deg - i + l)%nat by lia.
    fold delta. ring.
Qed.

Lemma sample_coeffs : forall s T d, sized s -> (d <= degree (sbasis s))%nat ->
  let len := (length (knots (sbasis s)) - degree (sbasis s) - 1)%nat in
  map (fun l => acc_sum len (fun m => 1 / T ^ d * at2 (derivative_T (knots (sbasis s)) (degree (sbasis s)) len d) l m
        * nth m (coeffs s) 0)) (seq 0 (len - d))
  = map (fun x => 1 / T ^ d * x) (coeffs (derivative s d)).
Proof.
  intros [[ks deg] c] T d SZ HD len. unfold sized in SZ. cbn [sbasis knots degree coeffs] in *.
  assert (CD : coeffs (derivative (mkS (mkB ks deg) c) d) = deriv_loop d 0 deg ks c) by (destruct d; reflexivity).
  rewrite CD. apply list_nth_ext.
  - rewrite !map_length, seq_length, deriv_loop_length. unfold len. lia.
  - intros i Hi. rewrite map_length, seq_length in Hi. rewrite nth_map_seq by exact Hi.
    rewrite (nth_indep (map (fun x => 1 / T ^ d * x) (deriv_loop d 0 deg ks c)) 0 (1 / T ^ d * 0))
      by (rewrite map_length, deriv_loop_length; unfold len in *; lia).
    rewrite (map_nth (fun x => 1 / T ^ d * x)).
    rewrite <- (matrix_row ks deg len c d i) by (unfold len in *; lia).
    rewrite <- rsum_scal, acc_rsum. apply rsum_ext. intros m _. ring.
Qed.

(** the exported code samples a spline and its derivatives in seconds exactly
    as the Python code does *)
Theorem sample_agrees : forall s T d t, well_formed (sbasis s) -> sized s -> (d <= degree (sbasis s))%nat ->
  sample_spline (knots (sbasis s)) (degree (sbasis s)) T (coeffs s) d t = in_seconds s T d t.
Proof.
  intros s T d t WF SZ HD. unfold sample_spline. rewrite sample_coeffs by assumption.
  destruct (deriv_inv d s HD WF SZ) as (WD & SD & DD & _).
  assert (KD : knots (sbasis (derivative s d)) = slice_oo d (knots (sbasis s))).
  { destruct d; [symmetry; apply slice_0|reflexivity]. }
  pose proof (eval_agrees (mul_num (derivative s d) (1 / T ^ d)) (t / T)) as E.
  unfold mul_num in E. cbn [sbasis coeffs] in E. rewrite KD, DD in E. unfold mul_num.
  rewrite E by (unfold sized in *; cbn [sbasis coeffs] in *; rewrite map_length; exact SD).
  pose proof (mul_num_call (derivative s d) (1 / T ^ d) (t / T)) as M. unfold mul_num in M. rewrite M.
  unfold in_seconds. unfold Rdiv. ring.
Qed.

(** ---- the initial guess ---- *)
Theorem init_guess : forall deg ki s0 sT, (1 <= ki)%nat -> (1 <= deg)%nat ->
  let s := mkS (mkB (py_knots deg ki) deg) (init_spline (ki + deg) s0 sT) in
  sized s /\ call s 0 = s0 /\ call s 1 = sT /\
  forall x, 0 <= x <= 1 -> Rmin s0 sT <= call s x <= Rmax s0 sT.
Proof.
  intros deg ki s0 sT K D s.
  destruct (py_knots_wf deg ki K) as (WF & CL & Z & DL & DR).
  assert (SZ : sized s).
  { unfold sized, s, init_spline. cbn [sbasis knots degree coeffs]. rewrite map_length, seq_length, py_knots_length. lia. }
  assert (LP : 0 < INR (ki + deg - 1)) by (apply lt_0_INR; lia).
  assert (C : forall j, (j < ki + deg)%nat -> nth j (coeffs s) 0 = s0 + INR j * (sT - s0) / INR (ki + deg - 1)).
  { intros j J. unfold s, init_spline. cbn [coeffs]. apply (nth_map_seq (fun j => s0 + INR j * (sT - s0) / INR (ki + deg - 1))). exact J. }
  destruct CL as (C1 & C2 & C3 & C4). cbn [knots degree] in C1, C2, C3, C4.
  split; [exact SZ|]. split; [|split].
  - rewrite <- Z. change (py_knots deg ki) with (knots (sbasis s)).
    rewrite call_left_end; [rewrite C by lia; simpl; field; lra|exact WF|exact SZ| |].
    + exact C1.
    + exact C3.
  - rewrite <- DR. change (mkB (py_knots deg ki) deg) with (sbasis s).
    rewrite call_right_end; [|exact WF|exact SZ|exact C2|exact C4].
    assert (LC : length (coeffs s) = (ki + deg)%nat) by (unfold s, init_spline; cbn [coeffs]; rewrite map_length, seq_length; reflexivity).
    rewrite LC, C by lia. field. lra.
  - intros x Hx. apply call_hull; [exact WF|exact SZ| |].
    + change (sbasis s) with (mkB (py_knots deg ki) deg). unfold in_domain. rewrite DL, DR. cbn [knots degree].
      destruct (Req_dec x 0) as [->|N].
      * right. split; [symmetry; exact Z|]. split; [reflexivity|]. rewrite DL in C3 || idtac.
        unfold dom_left in DL. cbn [knots degree] in DL. rewrite DL in C3. exact C3.
      * left. lra.
    + intros c I. apply (In_nth _ _ 0) in I. destruct I as (j & J & <-).
      assert (LC : length (coeffs s) = (ki + deg)%nat) by (unfold s, init_spline; cbn [coeffs]; rewrite map_length, seq_length; reflexivity).
      rewrite LC in J. rewrite C by exact J.
      assert (A : 0 <= INR j / INR (ki + deg - 1) <= 1).
      { split; [apply Rmult_le_pos; [apply pos_INR|left; apply Rinv_0_lt_compat; exact LP]|].
        apply (Rmult_le_reg_r (INR (ki + deg - 1))); [exact LP|].
        replace (INR j / INR (ki + deg - 1) * INR (ki + deg - 1)) with (INR j) by (field; lra).
        rewrite Rmult_1_l. apply le_INR. lia. }
      replace (s0 + INR j * (sT - s0) / INR (ki + deg - 1)) with (s0 + INR j / INR (ki + deg - 1) * (sT - s0)) by (field; lra).
      revert A. generalize (INR j / INR (ki + deg - 1)). intros a [A1 A2].
      unfold Rmin, Rmax. destruct (Rle_dec s0 sT).
      * split; [|]; assert (0 <= a * (sT - s0) <= 1 * (sT - s0)) by (split; [apply Rmult_le_pos; lra|apply Rmult_le_compat_r; lra]); lra.
      * assert (0 <= a * (s0 - sT) <= 1 * (s0 - sT)) by (split; [apply Rmult_le_pos; lra|apply Rmult_le_compat_r; lra]). lra.
Qed.
