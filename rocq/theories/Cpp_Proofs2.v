(** Exported prediction: integration of the input. *)
From Coq Require Import Reals List Arith Bool ZArith Lia Lra.
From Verif Require Import Spline_Proofs Export_Model Cpp_Model Cpp_Spec Cpp_Proofs.
Import ListNotations.
Local Open Scope R_scope.

Lemma axpy_length : forall a k s, length (axpy a k s) = Nat.min (length k) (length s).
Proof. intros. unfold axpy. rewrite map_length, combine_length. reflexivity. Qed.

Lemma axpy_nth : forall a k s j, length k = length s -> (j < length s)%nat ->
  nth j (axpy a k s) 0 = nth j s 0 + a * nth j k 0.
Proof.
  intros a k s j L H. unfold axpy.
  rewrite (nth_indep _ 0 ((fun p : R * R => snd p + a * fst p) (0, 0))) by (rewrite map_length, combine_length; lia).
  rewrite (map_nth (fun p : R * R => snd p + a * fst p)). rewrite combine_nth by exact L. reflexivity.
Qed.

Lemma rk_holonomic_length : forall dt s0 u u', length u' = length u -> length (rk_step holonomic_ode dt s0 u u') = length u.
Proof. intros. unfold rk_step, holonomic_ode. rewrite map_length, !combine_length. lia. Qed.

Lemma rk_holonomic : forall dt s0 u u' j, length u' = length u -> (j < length u)%nat ->
  nth j (rk_step holonomic_ode dt s0 u u') 0 = dt / 6 * (5 * nth j u 0 + nth j u' 0).
Proof.
  intros dt s0 u u' j L H. unfold rk_step, holonomic_ode.
  set (f := fun p : R * R * R * R => _).
  rewrite (nth_indep _ 0 (f (0, 0, 0, 0))) by (rewrite map_length, !combine_length; lia).
  rewrite (map_nth f). rewrite !combine_nth by (rewrite ?combine_length; lia). unfold f. cbn [fst snd]. field.
Qed.

(** value added by one step *)
Definition added (dt : R) (input : list vec) (j i : nat) : R :=
  dt / 6 * (5 * nth j (nth i input []) 0 + nth j (nth (S i) input []) 0).

Lemma nth_error_in : forall (input : list vec) i, (i < length input)%nat -> nth_error input i = Some (nth i input []).
Proof.
  intros input i H. destruct (nth_error input i) eqn:E.
  - f_equal. symmetry. apply nth_error_nth. exact E.
  - apply nth_error_None in E. lia.
Qed.

Lemma integrate_from_holonomic : forall dim dt s0 input, Forall (fun u => length u = dim) input ->
  forall steps i sT, length sT = dim -> (i + steps < length input)%nat ->
  exists s, integrate_from holonomic_ode dt s0 input steps i sT = Some s /\ length s = dim /\
    forall j, (j < dim)%nat -> nth j s 0 = nth j sT 0 + rsum steps (fun k => added dt input j (i + k)).
Proof.
  unfold vec in *. intros dim dt s0 input F steps. induction steps as [|n IH]; intros i sT L H.
  - exists sT. split; [reflexivity|]. split; [exact L|]. intros j J. simpl. ring.
  - cbn [integrate_from]. unfold vec in *. rewrite !nth_error_in by (unfold vec in *; lia).
    assert (L0 : length (nth i input []) = dim) by (rewrite Forall_forall in F; apply F, nth_In; lia).
    assert (L1 : length (nth (S i) input []) = dim) by (rewrite Forall_forall in F; apply F, nth_In; lia).
    set (r := rk_step holonomic_ode dt s0 (nth i input []) (nth (S i) input [])).
    assert (LR : length r = dim) by (unfold r; rewrite rk_holonomic_length; congruence).
    destruct (IH (S i) (axpy 1 r sT)) as (s & E & LS & V); [rewrite axpy_length; lia|lia|].
    exists s. split; [exact E|]. split; [exact LS|]. intros j J. rewrite V by exact J.
    rewrite axpy_nth by lia. unfold r. rewrite rk_holonomic by lia.
    rewrite rsum_split0. rewrite Nat.add_0_r.
    rewrite (rsum_ext n (fun k => added dt input j (S i + k)) (fun k => added dt input j (i + S k)))
      by (intros k _; f_equal; lia). change (added dt input j i) with (dt / 6 * (5 * nth j (nth i input []) 0 + nth j (nth (S i) input []) 0)). ring.
Qed.

Theorem integrate_sum : forall dim dt s0 input steps,
  Forall (fun u => length u = dim) input -> length s0 = dim -> (steps < length input)%nat ->
  exists s, integrate holonomic_ode s0 input dt steps = Some s /\ length s = dim /\
    forall j, (j < dim)%nat -> nth j s 0 =
      nth j s0 0 + acc_sum steps (fun i => dt / 6 * (5 * nth j (nth i input []) 0 + nth j (nth (S i) input []) 0)).
Proof.
  intros dim dt s0 input steps F L H.
  destruct (integrate_from_holonomic dim dt s0 input F steps 0 s0 L H) as (s & E & LS & V).
  exists s. split; [exact E|]. split; [exact LS|]. intros j J. rewrite V by exact J. reflexivity.
Qed.

(** compared with the input that is linear between its samples *)
Lemma sum_trapezoid : forall dt input j steps,
  acc_sum steps (fun i => dt / 6 * (5 * nth j (nth i input []) 0 + nth j (nth (S i) input []) 0))
  = trapezoid dt input steps j + dt / 3 * (nth j (nth 0 input []) 0 - nth j (nth steps input []) 0).
Proof.
  intros dt input j steps. unfold trapezoid. induction steps as [|n IH]; [cbn [acc_sum]; ring|].
  cbn [acc_sum]. rewrite IH. unfold vec in *. field.
Qed.

Theorem integrate_error : forall dim dt s0 input steps,
  Forall (fun u => length u = dim) input -> length s0 = dim -> (steps < length input)%nat ->
  exists s, integrate holonomic_ode s0 input dt steps = Some s /\ length s = dim /\
    forall j, (j < dim)%nat -> nth j s 0 =
      nth j s0 0 + trapezoid dt input steps j + dt / 3 * (nth j (nth 0 input []) 0 - nth j (nth steps input []) 0).
Proof.
  intros dim dt s0 input steps F L H. destruct (integrate_sum dim dt s0 input steps F L H) as (s & E & LS & V).
  exists s. split; [exact E|]. split; [exact LS|]. intros j J. rewrite V by exact J. rewrite sum_trapezoid. ring.
Qed.

Theorem integrate_constant : forall dim dt s0 u steps n,
  length u = dim -> length s0 = dim -> (steps < n)%nat ->
  exists s, integrate holonomic_ode s0 (repeat u n) dt steps = Some s /\ length s = dim /\
    forall j, (j < dim)%nat -> nth j s 0 = nth j s0 0 + INR steps * dt * nth j u 0.
Proof.
  intros dim dt s0 u steps n LU L H.
  assert (F : Forall (fun u => length u = dim) (repeat u n)).
  { rewrite Forall_forall. intros x I. apply repeat_spec in I. subst x. exact LU. }
  destruct (integrate_sum dim dt s0 (repeat u n) steps F L ltac:(rewrite repeat_length; exact H)) as (s & E & LS & V).
  exists s. split; [exact E|]. split; [exact LS|]. intros j J. rewrite V by exact J. f_equal.
  assert (N : forall i, (i < n)%nat -> nth i (repeat u n) [] = u).
  { intros i I. assert (I' : In (nth i (repeat u n) []) (repeat u n)) by (apply nth_In; rewrite repeat_length; exact I).
    apply repeat_spec in I'. exact I'. }
  clear E V. induction steps as [|k IH]; [cbn [acc_sum INR]; ring|].
  cbn [acc_sum]. rewrite IH by lia. rewrite !N by lia. rewrite S_INR. field.
Qed.

Theorem varying_input_refuted : exists s0 input s, integrate holonomic_ode s0 input 1 1 = Some s /\
  nth 0 s 0 <> nth 0 s0 0 + trapezoid 1 input 1 0.
Proof.
  exists [0], [[0]; [1]]. eexists. split; [reflexivity|]. unfold trapezoid. cbn. intro E. lra.
Qed.

(** predicting twice for half the time is predicting once, for this ode *)
Lemma integrate_from_shift : forall ode dt s0 a input, forall steps i sT,
  integrate_from ode dt s0 (skipn a input) steps i sT = integrate_from ode dt s0 input steps (a + i) sT.
Proof.
  intros ode dt s0 a input steps. induction steps as [|n IH]; intros i sT; [reflexivity|].
  cbn [integrate_from].
  assert (N : forall k, nth_error (skipn a input) k = nth_error input (a + k)).
  { clear. revert input. induction a as [|a IHa]; intros input k; [reflexivity|].
    destruct input as [|x input]; [destruct k; reflexivity|]. cbn [skipn]. rewrite IHa. reflexivity. }
  rewrite !N. replace (a + S i)%nat with (S (a + i)) by lia.
  destruct (nth_error input (a + i)) as [u|]; [|reflexivity]. destruct (nth_error input (S (a + i))) as [u'|]; [|reflexivity].
  rewrite IH. replace (a + S i)%nat with (S (a + i)) by lia. reflexivity.
Qed.

Lemma integrate_from_split : forall ode dt s0 input a b i sT,
  integrate_from ode dt s0 input (a + b) i sT =
  match integrate_from ode dt s0 input a i sT with
  | Some s => integrate_from ode dt s0 input b (i + a) s
  | None => None end.
Proof.
  intros ode dt s0 input a. induction a as [|a IH]; intros b i sT.
  - cbn [plus integrate_from]. rewrite Nat.add_0_r. reflexivity.
  - cbn [plus integrate_from]. destruct (nth_error input i); [|reflexivity].
    destruct (nth_error input (S i)); [|reflexivity]. rewrite IH. replace (S i + a)%nat with (i + S a)%nat by lia. reflexivity.
Qed.

Lemma holonomic_restart : forall dt s0 s0' input steps i sT,
  integrate_from holonomic_ode dt s0 input steps i sT = integrate_from holonomic_ode dt s0' input steps i sT.
Proof.
  intros dt s0 s0' input steps. induction steps as [|n IH]; intros i sT; [reflexivity|].
  cbn [integrate_from]. destruct (nth_error input i) as [u|]; [|reflexivity].
  destruct (nth_error input (S i)) as [u'|]; [|reflexivity]. apply IH.
Qed.

Theorem integrate_twice : forall dt s0 input a b s, integrate holonomic_ode s0 input dt a = Some s ->
  integrate holonomic_ode s0 input dt (a + b) = integrate holonomic_ode s (skipn a input) dt b.
Proof.
  intros dt s0 input a b s E. unfold integrate in *. rewrite integrate_from_split, E.
  rewrite integrate_from_shift. cbn [plus]. rewrite Nat.add_0_r. apply holonomic_restart.
Qed.

Theorem state_ode_refuted : exists ode s0 input s1 s2 s2', integrate ode s0 input 1 1 = Some s1 /\
  integrate ode s1 (skipn 1 input) 1 1 = Some s2 /\ integrate ode s0 input 1 2 = Some s2' /\ nth 0 s2 0 <> nth 0 s2' 0.
Proof.
  exists (fun s _ => s), [1], [[0]; [0]; [0]]. do 3 eexists.
  split; [reflexivity|]. split; [reflexivity|]. split; [reflexivity|].
  cbn. intro E. lra.
Qed.

(** ---- predict ---- *)
Lemma nth_error_none_le : forall (l : list vec) i, (length l <= i)%nat -> nth_error l i = None.
Proof. intros l i H. apply nth_error_None. exact H. Qed.

Theorem predict_ideal : forall ode s0 st inp dt steps shift,
  (steps + shift < length st)%nat -> (steps + shift < length inp)%nat ->
  predict ode Ideal s0 st inp dt steps shift = Some (nth (steps + shift) st [], nth (steps + shift) inp []).
Proof. intros. unfold predict. rewrite !nth_error_in by assumption. reflexivity. Qed.

Theorem predict_integrated : forall dim s0 st inp dt steps shift,
  Forall (fun u => length u = dim) inp -> length s0 = dim -> (steps + shift < length inp)%nat ->
  exists s, predict holonomic_ode Integrate s0 st inp dt steps shift = Some (s, nth (steps + shift) inp []) /\
    forall j, (j < dim)%nat -> nth j s 0 =
      nth j s0 0 + acc_sum steps (fun i => dt / 6 * (5 * nth j (nth (i + shift) inp []) 0 + nth j (nth (S i + shift) inp []) 0)).
Proof.
  intros dim s0 st inp dt steps shift F L H. unfold predict.
  unfold vec in *. destruct (Nat.ltb_spec (steps + shift) (length inp)) as [_|BAD]; [|lia].
  set (input := map (fun k => nth (k + shift) inp []) (seq 0 (steps + 1))).
  assert (LI : length input = (steps + 1)%nat) by (unfold input; rewrite map_length, seq_length; reflexivity).
  assert (N : forall i, (i < steps + 1)%nat -> nth i input [] = nth (i + shift) inp []).
  { intros i I. unfold input.
    rewrite (nth_indep _ [] (nth (0 + shift) inp [])) by (rewrite map_length, seq_length; exact I).
    rewrite (map_nth (fun k => nth (k + shift) inp [])), seq_nth by exact I. reflexivity. }
  assert (FI : Forall (fun u => length u = dim) input).
  { unfold input. rewrite Forall_map, Forall_forall. intros k I. apply in_seq in I.
    rewrite Forall_forall in F. apply F, nth_In. lia. }
  destruct (integrate_sum dim dt s0 input steps FI L ltac:(lia)) as (s & E & LS & V).
  assert (NE : nth_error input steps = Some (nth (steps + shift) inp [])).
  { rewrite nth_error_in by (unfold vec in *; lia). f_equal. apply N. lia. }
  exists s. split; [cbv zeta; change (map (fun k => nth (k + shift) inp []) (seq 0 (steps + 1))) with input;
    unfold vec in *; rewrite E, NE; reflexivity|].
  intros j J. rewrite V by exact J. f_equal. apply (rsum_ext steps). intros i I. rewrite !N by lia. reflexivity.
Qed.

Theorem predict_defined : forall ode md s0 st inp dt steps shift L,
  length st = stored_samples L steps -> length inp = stored_samples L steps ->
  (exists r, predict ode md s0 st inp dt steps shift = Some r) -> (steps + shift <= Nat.max L steps)%nat.
Proof.
  intros ode md s0 st inp dt steps shift L LS LI [r E].
  assert (M : stored_samples L steps = S (Nat.max L steps)).
  { unfold stored_samples. destruct (Nat.ltb_spec steps L); lia. }
  assert (A : (steps + shift < length inp)%nat).
  { destruct (Nat.lt_ge_cases (steps + shift) (length inp)) as [A|A]; [exact A|]. exfalso. unfold predict in E. destruct md.
    - rewrite (nth_error_none_le inp) in E by lia. destruct (nth_error st (steps + shift)); discriminate.
    - rewrite nth_error_none_le in E by lia. discriminate.
    - destruct (Nat.ltb_spec (steps + shift) (length inp)); [lia|discriminate]. }
  lia.
Qed.

Theorem predict_total : forall dim md s0 st inp dt steps shift L,
  length st = stored_samples L steps -> length inp = stored_samples L steps ->
  Forall (fun u => length u = dim) inp -> length s0 = dim -> (steps + shift <= Nat.max L steps)%nat ->
  exists r, predict holonomic_ode md s0 st inp dt steps shift = Some r.
Proof.
  intros dim md s0 st inp dt steps shift L LS LI F L0 H.
  assert (M : stored_samples L steps = S (Nat.max L steps)).
  { unfold stored_samples. destruct (Nat.ltb_spec steps L); lia. }
  destruct md.
  - eexists. apply predict_ideal; (unfold vec in *; lia).
  - unfold predict. rewrite nth_error_in by (unfold vec in *; lia). eexists. reflexivity.
  - destruct (predict_integrated dim s0 st inp dt steps shift F L0 ltac:(unfold vec in *; lia)) as (s & E & _). eexists. exact E.
Qed.

(** the constructor without trajectory length keeps only the samples of one
    update: any prediction shift reads past the end *)
Theorem default_length_refuted : forall ode md s0 st inp dt steps shift,
  length st = stored_samples 0 steps -> length inp = stored_samples 0 steps -> (0 < shift)%nat ->
  predict ode md s0 st inp dt steps shift = None.
Proof.
  intros ode md s0 st inp dt steps shift LS LI H.
  destruct (predict ode md s0 st inp dt steps shift) eqn:E; [|reflexivity].
  pose proof (predict_defined ode md s0 st inp dt steps shift 0 LS LI (ex_intro _ _ E)). lia.
Qed.
