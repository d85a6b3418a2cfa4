(** Time keeping of the exported problems. *)
From Coq Require Import Reals List Arith Bool ZArith Lia Lra.
From Verif Require Import Export_Model Cpp_Model Cpp_Spec.
Import ListNotations.
Local Open Scope R_scope.

Lemma Ip_eq : forall x z, IZR z <= x -> x < IZR z + 1 -> Int_part x = z.
Proof.
  intros x z A B. destruct (base_Int_part x) as (C & D).
  assert (E : (Int_part x < z + 1)%Z) by (apply lt_IZR; rewrite plus_IZR; lra).
  assert (F : (z < Int_part x + 1)%Z) by (apply lt_IZR; rewrite plus_IZR; lra). lia.
Qed.

Lemma Ip_bounds : forall x, IZR (Int_part x) <= x < IZR (Int_part x) + 1.
Proof. intro x. destruct (base_Int_part x). lra. Qed.

Lemma Ip_mono : forall x y, x <= y -> (Int_part x <= Int_part y)%Z.
Proof.
  intros x y H. destruct (Ip_bounds x), (Ip_bounds y).
  assert (E : (Int_part x < Int_part y + 1)%Z) by (apply lt_IZR; rewrite plus_IZR; lra). lia.
Qed.

Lemma Ip_add : forall x z, Int_part (x + IZR z) = (Int_part x + z)%Z.
Proof. intros x z. destruct (Ip_bounds x). apply Ip_eq; rewrite plus_IZR; lra. Qed.

Lemma cround_mono : forall x y, x <= y -> cround x <= cround y.
Proof. intros x y H. unfold cround. apply IZR_le, Ip_mono. lra. Qed.

Lemma cround_add : forall x z, cround (x + IZR z) = cround x + IZR z.
Proof.
  intros x z. unfold cround. replace (x + IZR z + 1 / 2) with (x + 1 / 2 + IZR z) by ring.
  rewrite Ip_add, plus_IZR. reflexivity.
Qed.

Lemma cround_whole : forall z, cround (IZR z) = IZR z.
Proof. intro z. unfold cround. f_equal. apply Ip_eq; lra. Qed.

Lemma cround_near : forall x, x - 1 / 2 < cround x <= x + 1 / 2.
Proof. intro x. unfold cround. destruct (Ip_bounds (x + 1 / 2)). lra. Qed.

Section Clock.
Variables (ki : nat) (T : R).
Hypothesis TP : 0 < T.

Lemma scaled : forall t t', t <= t' -> t * INR ki / T <= t' * INR ki / T.
Proof.
  intros t t' H. apply Rmult_le_compat_r; [left; apply Rinv_0_lt_compat; exact TP|].
  apply Rmult_le_compat_r; [apply pos_INR|exact H].
Qed.

Lemma interval_mono : forall t t', t <= t' -> (interval ki T t <= interval ki T t')%Z.
Proof.
  intros t t' H. unfold interval. apply Ip_mono. apply Rmult_le_compat_r; [lra|]. apply cround_mono.
  apply Rmult_le_compat_r; [lra|]. apply scaled. exact H.
Qed.

Lemma interval_0 : interval ki T 0 = 0%Z.
Proof.
  unfold interval. replace (0 * INR ki / T * 1000000) with (IZR 0) by (unfold Rdiv; ring).
  rewrite cround_whole. apply Ip_eq; unfold Rdiv; rewrite Rmult_0_l; lra.
Qed.

Lemma interval_step : forall t u, u * INR ki <= T -> (interval ki T (t + u) <= interval ki T t + 1)%Z.
Proof.
  intros t u H. unfold interval. rewrite <- (Ip_add _ 1). apply Ip_mono.
  assert (A : cround ((t + u) * INR ki / T * 1000000) <= cround (t * INR ki / T * 1000000 + IZR 1000000)).
  { apply cround_mono. assert (B : u * INR ki / T <= 1).
    { apply (Rmult_le_reg_r T); [exact TP|]. replace (u * INR ki / T * T) with (u * INR ki) by (field; lra). lra. }
    replace ((t + u) * INR ki / T * 1000000) with (t * INR ki / T * 1000000 + u * INR ki / T * 1000000) by (field; lra). lra. }
  rewrite cround_add in A. lra.
Qed.

(** a shift is due exactly once when the clock moves by at most one interval *)
Lemma shift_due : forall cur prev n, prev <= cur -> (interval ki T cur <= interval ki T prev + 1)%Z ->
  Z.of_nat n = interval ki T prev -> Z.of_nat (shift_count ki T cur prev n) = interval ki T cur.
Proof.
  intros cur prev n A B C. pose proof (interval_mono prev cur A). unfold shift_count.
  destruct (Z.ltb_spec (interval ki T prev) (interval ki T cur)); lia.
Qed.

Variables (u dt : R).
Hypothesis (UP : 0 <= u) (UT : u * INR ki <= T).

Definition steady (k : clock) : Prop :=
  Z.of_nat (k_shifts k) = interval ki T (k_prev k) /\ (k_cur k = k_prev k \/ k_cur k = k_prev k + u).

Lemma steady_shift : forall k, steady k ->
  Z.of_nat (shift_count ki T (k_cur k) (k_prev k) (k_shifts k)) = interval ki T (k_cur k).
Proof.
  intros k [S1 S2]. apply shift_due; [lra| |exact S1].
  destruct S2 as [->|E]; [lia|]. rewrite E. apply interval_step. exact UT.
Qed.

Lemma p2p_steady : forall ok k, steady k ->
  steady (p2p_update ki T u dt 0 ok k) /\ k_prev (p2p_update ki T u dt 0 ok k) = k_cur k /\
  k_cur (p2p_update ki T u dt 0 ok k) = k_cur k + (if ok then u else 0).
Proof.
  intros ok k S. pose proof (steady_shift k S) as H. unfold p2p_update.
  replace (k_cur k + INR 0 * dt) with (k_cur k) by (simpl; ring).
  destruct ok; cbn [k_cur k_prev k_shifts]; (split; [split; [exact H|]|split; [reflexivity|]]); cbn [k_cur k_prev]; auto; ring.
Qed.

Lemma p2p_run_snoc : forall oks ok, p2p_run ki T u dt (oks ++ [ok]) = p2p_update ki T u dt 0 ok (p2p_run ki T u dt oks).
Proof. intros. unfold p2p_run. rewrite fold_left_app. reflexivity. Qed.

Lemma successes_snoc : forall oks ok, successes (oks ++ [ok]) = (successes oks + (if ok then 1 else 0))%nat.
Proof. intros. unfold successes. rewrite count_occ_app. destruct ok; reflexivity. Qed.

Lemma clock0_steady : steady clock0.
Proof. split; cbn [clock0 k_shifts k_prev k_cur]; [symmetry; apply interval_0|left; reflexivity]. Qed.

Lemma p2p_run_steady : forall oks, steady (p2p_run ki T u dt oks) /\ k_cur (p2p_run ki T u dt oks) = INR (successes oks) * u.
Proof.
  intro oks. induction oks as [|ok oks IH] using rev_ind.
  - split; [apply clock0_steady|]. simpl. ring.
  - rewrite p2p_run_snoc, successes_snoc. destruct IH as [S C]. destruct (p2p_steady ok _ S) as (S' & _ & C').
    split; [exact S'|]. rewrite C', C, plus_INR. destruct ok; simpl; ring.
Qed.

(** ---- ADMM ---- *)
Variable init : nat.

Definition waiting (k : clock) : Prop := (k_iter k <= init)%nat -> k_cur k = 0 /\ k_prev k = 0.

Lemma admm_steady : forall ok k, steady k -> waiting k ->
  let k' := admm_update1 ki T u dt init 0 ok k in
  steady k' /\ waiting k' /\ k_iter k' = (k_iter k + (if ok then 1 else 0))%nat /\
  k_cur k' = k_cur k + (if (ok && (init <=? k_iter k)%nat)%bool then u else 0) /\
  Z.of_nat (k_shifts k') = interval ki T (k_cur k).
Proof.
  intros ok k S W. pose proof (steady_shift k S) as H. unfold admm_update1.
  replace (k_cur k + INR 0 * dt) with (k_cur k) by (simpl; ring). cbv zeta.
  destruct ok; [destruct (Nat.leb_spec init (k_iter k)) as [A|A]|]; cbn [andb].
  - split; [split; [exact H|right; reflexivity]|]. split; [intro B; cbn [k_iter] in B; lia|].
    cbn [k_iter k_cur k_shifts]. split; [lia|]. split; [ring|exact H].
  - destruct (W ltac:(lia)) as [W1 W2].
    assert (E : k_cur k = k_prev k) by lra.
    split; [split; cbn [k_shifts k_prev k_cur]; [rewrite H; f_equal; exact E|left; exact E]|].
    split; [intro B; cbn [k_cur k_prev]; split; assumption|]. cbn [k_iter k_cur k_shifts]. split; [lia|]. split; [ring|exact H].
  - split; [split; [exact H|left; reflexivity]|].
    split; [intro B; cbn [k_cur k_prev k_iter] in *; destruct (W B); split; assumption|].
    cbn [k_iter k_cur k_shifts]. split; [lia|]. split; [ring|exact H].
Qed.

Lemma admm_run_snoc : forall oks ok,
  admm_run ki T u dt init (oks ++ [ok]) = admm_update1 ki T u dt init 0 ok (admm_run ki T u dt init oks).
Proof. intros. unfold admm_run. rewrite fold_left_app. reflexivity. Qed.

Lemma admm_run_steady : forall oks, let k := admm_run ki T u dt init oks in
  steady k /\ waiting k /\ k_iter k = successes oks /\ k_cur k = INR (successes oks - init) * u.
Proof.
  intro oks. induction oks as [|ok oks IH] using rev_ind; cbv zeta in *.
  - split; [apply clock0_steady|]. split; [intros _; split; reflexivity|]. split; [reflexivity|]. simpl. ring.
  - rewrite admm_run_snoc, successes_snoc. destruct IH as (S & W & I & C).
    destruct (admm_steady ok _ S W) as (S' & W' & I' & C' & _). split; [exact S'|]. split; [exact W'|].
    split; [rewrite I', I; reflexivity|]. rewrite C', C, I.
    destruct ok; cbn [andb]; [|replace (successes oks + 0 - init)%nat with (successes oks - init)%nat by lia; ring].
    destruct (Nat.leb_spec init (successes oks)).
    + replace (successes oks + 1 - init)%nat with (Datatypes.S (successes oks - init)) by lia. rewrite S_INR. ring.
    + replace (successes oks + 1 - init)%nat with 0%nat by lia. replace (successes oks - init)%nat with 0%nat by lia. simpl. ring.
Qed.

End Clock.

Theorem p2p_clock : forall ki T u dt oks ok, 0 < T -> 0 <= u -> u * INR ki <= T ->
  let k := p2p_run ki T u dt oks in let k' := p2p_update ki T u dt 0 ok k in
  k_cur k = INR (successes oks) * u /\ k_cur k' = k_cur k + (if ok then u else 0) /\
  Z.of_nat (k_shifts k') = interval ki T (k_cur k).
Proof.
  intros ki T u dt oks ok TP UP UT k k'. destruct (p2p_run_steady ki T TP u dt UP UT oks) as [S C].
  destruct (p2p_steady ki T TP u dt UP UT ok k S) as ((S1 & _) & P & C').
  split; [exact C|]. split; [exact C'|]. unfold k'. rewrite S1, P. reflexivity.
Qed.

Theorem admm_clock : forall ki T u dt init oks ok, 0 < T -> 0 <= u -> u * INR ki <= T ->
  let k := admm_run ki T u dt init oks in let k' := admm_update1 ki T u dt init 0 ok k in
  k_iter k = successes oks /\ k_cur k = INR (successes oks - init) * u /\
  Z.of_nat (k_shifts k') = interval ki T (k_cur k).
Proof.
  intros ki T u dt init oks ok TP UP UT k k'. destruct (admm_run_steady ki T TP u dt UP UT init oks) as (S & W & I & C).
  destruct (admm_steady ki T TP u dt UP UT init ok k S W) as (_ & _ & _ & _ & H).
  split; [exact I|]. split; [exact C|exact H].
Qed.

(** trying again with a prediction shift moves the clock again *)
Theorem retry_refuted : forall ki T u dt k, dt <> 0 ->
  k_cur (p2p_update ki T u dt 1 true (p2p_update ki T u dt 1 false k)) <> k_cur (p2p_update ki T u dt 1 true k).
Proof. intros ki T u dt k H. unfold p2p_update. cbn [k_cur INR]. intro E. apply H. lra. Qed.

(** an update longer than two knot intervals shifts once *)
Theorem long_update_refuted : exists ki T u dt,
  let k := p2p_run ki T u dt [true] in let k' := p2p_update ki T u dt 0 true k in
  0 < T /\ k_shifts k' = 1%nat /\ interval ki T (k_cur k) = 2%Z.
Proof.
  exists 10%nat, 10, 2, 1. cbv zeta. split; [lra|].
  assert (E : interval 10 10 2 = 2%Z).
  { unfold interval. replace (2 * INR 10 / 10 * 1000000) with (IZR 2000000) by (simpl; field).
    rewrite cround_whole. apply Ip_eq; lra. }
  assert (Z : interval 10 10 0 = 0%Z) by (apply interval_0).
  unfold p2p_run, p2p_update, shift_count, clock0. cbn [fold_left k_cur k_prev k_shifts INR].
  replace (0 + 0 * 1) with 0 by ring. rewrite Z. cbn [Z.ltb Z.compare].
  replace (0 + 2 + 0 * 1) with 2 by ring. replace (0 + 2) with 2 by ring. rewrite E. split; reflexivity.
Qed.

(** ---- the local time ---- *)
Theorem local_range : forall ki T t, (0 < ki)%nat -> 0 < T -> 0 <= local_time ki T t < T / INR ki.
Proof.
  intros ki T t K TP. assert (KP : 0 < INR ki) by (apply lt_0_INR; exact K).
  assert (D : 0 < T / INR ki) by (apply Rdiv_lt_0_compat; assumption).
  unfold local_time, fmod. set (x := cround (t * 1000) / 1000). set (y := T / INR ki) in *.
  destruct (Ip_bounds (x / y)) as [A B].
  assert (E : x = y * (x / y)) by (field; lra).
  assert (A' : y * IZR (Int_part (x / y)) <= y * (x / y)) by (apply Rmult_le_compat_l; lra).
  assert (B' : y * (x / y) < y * (IZR (Int_part (x / y)) + 1)) by (apply Rmult_lt_compat_l; lra). lra.
Qed.

(** times in whole milliseconds: the local time is the time since the last
    shift *)
Theorem local_milliseconds : forall ki T t m q, (0 < ki)%nat -> 0 < T ->
  t = IZR m / 1000 -> (0 <= m)%Z -> T / INR ki = IZR q / 1000 -> (0 < q < 2000000)%Z ->
  local_time ki T t = t - IZR (interval ki T t) * (T / INR ki).
Proof.
  intros ki T t m q K TP TM M KQ Q. assert (KP : 0 < INR ki) by (apply lt_0_INR; exact K).
  assert (QP : 0 < IZR q) by (apply IZR_lt; lia).
  unfold local_time. replace (t * 1000) with (IZR m) by (rewrite TM; field). rewrite cround_whole, <- TM.
  unfold fmod. rewrite KQ.
  assert (X : t * INR ki / T = IZR m / IZR q).
  { replace (t * INR ki / T) with (t / (T / INR ki)) by (field; lra). rewrite KQ, TM. field. lra. }
  assert (X' : t / (IZR q / 1000) = IZR m / IZR q) by (rewrite TM; field; lra). rewrite X'.
  assert (I : interval ki T t = Int_part (IZR m / IZR q)).
  { unfold interval. rewrite X.
    pose proof (Z_div_mod_eq_full m q) as DM. pose proof (Z.mod_pos_bound m q ltac:(lia)) as MB.
    assert (F : IZR m / IZR q = IZR (m / q) + IZR (m mod q) / IZR q).
    { rewrite DM at 1. rewrite plus_IZR, mult_IZR. field. lra. }
    set (d := (m / q)%Z) in *. set (r := (m mod q)%Z) in *.
    assert (FR : 0 <= IZR r / IZR q < 1 - / 2000000).
    { split; [apply Rmult_le_pos; [apply IZR_le; lia|left; apply Rinv_0_lt_compat; exact QP]|].
      apply Rlt_le_trans with (1 - / IZR q + / IZR q * (1 - IZR q * / 2000000)).
      - apply Rle_lt_trans with (1 - / IZR q).
        + apply (Rmult_le_reg_r (IZR q)); [exact QP|].
          replace (IZR r / IZR q * IZR q) with (IZR r) by (field; lra).
          replace ((1 - / IZR q) * IZR q) with (IZR q - 1) by (field; lra).
          replace (IZR q - 1) with (IZR (q - 1)) by (rewrite minus_IZR; reflexivity). apply IZR_le. lia.
        + assert (0 < / IZR q) by (apply Rinv_0_lt_compat; exact QP).
          assert (IZR q < 2000000) by (apply IZR_lt; lia).
          assert (0 < / IZR q * (1 - IZR q * / 2000000)) by (apply Rmult_lt_0_compat; lra). lra.
      - right. field. lra. }
    assert (RI : Int_part (IZR m / IZR q) = d) by (apply Ip_eq; lra). rewrite RI.
    rewrite F. rewrite Rmult_plus_distr_r.
    replace (IZR d * 1000000) with (IZR (d * 1000000)) by (rewrite mult_IZR; reflexivity).
    rewrite Rplus_comm, cround_add.
    set (f := cround (IZR r / IZR q * 1000000)).
    assert (FB : 0 <= f < 1000000).
    { split.
      - unfold f. rewrite <- (cround_whole 0). apply cround_mono.
        assert (0 <= IZR r / IZR q * 1000000) by (apply Rmult_le_pos; lra). lra.
      - unfold f, cround. apply (IZR_lt _ 1000000).
        destruct (Ip_bounds (IZR r / IZR q * 1000000 + 1 / 2)) as [A _]. apply lt_IZR.
        eapply Rle_lt_trans; [exact A|]. lra. }
    rewrite mult_IZR. replace ((f + IZR d * 1000000) / 1000000) with (f / 1000000 + IZR d) by field.
    rewrite Ip_add. rewrite (Ip_eq (f / 1000000) 0); [lia|lra|lra]. }
  rewrite I. ring.
Qed.

(** otherwise the problem can be told that almost a whole interval remains to
    be travelled right after the splines have been shifted *)
Theorem local_rounding_refuted : exists ki T u dt,
  let k := p2p_run ki T u dt [true] in let k' := p2p_update ki T u dt 0 true k in
  0 < T /\ 0 < u /\ u * INR ki <= T /\ k_shifts k' = 1%nat /\ k_cur k = T / INR ki /\
  local_time ki T (k_cur k) = 33 / 1000 /\ T / INR ki - local_time ki T (k_cur k) < 4 / 10000.
Proof.
  exists 30%nat, 1, (1 / 30), 1. cbv zeta.
  assert (K30 : INR 30 = 30) by (simpl; ring).
  assert (E : interval 30 1 (1 / 30) = 1%Z).
  { unfold interval. rewrite K30. replace (1 / 30 * 30 / 1 * 1000000) with (IZR 1000000) by field.
    rewrite cround_whole. apply Ip_eq; lra. }
  assert (Z : interval 30 1 0 = 0%Z) by (apply interval_0).
  assert (C : k_cur (p2p_run 30 1 (1 / 30) 1 [true]) = 1 / 30).
  { unfold p2p_run, p2p_update, clock0. cbn [fold_left k_cur k_prev k_shifts INR]. ring. }
  assert (L : local_time 30 1 (1 / 30) = 33 / 1000).
  { unfold local_time. replace (cround (1 / 30 * 1000)) with 33.
    - unfold fmod. rewrite K30. rewrite (Ip_eq _ 0); [ring|lra|lra].
    - unfold cround. f_equal. symmetry. apply Ip_eq; lra. }
  split; [lra|]. split; [lra|]. split; [rewrite K30; lra|]. split.
  { unfold p2p_run, p2p_update, shift_count, clock0. cbn [fold_left k_cur k_prev k_shifts].
    change (INR 0) with 0. replace (0 + 0 * 1) with 0 by ring. rewrite Z.
    change (0 <? 0)%Z with false. cbn iota.
    replace (0 + 1 / 30 + 0 * 1) with (1 / 30) by ring. rewrite E. reflexivity. }
  rewrite C, L, K30. split; [reflexivity|]. split; [reflexivity|]. lra.
Qed.

(** ---- distributed updates ---- *)
Theorem step_back_repeats : forall ki T u dt init oks ok, 0 < T -> 0 <= u -> u * INR ki <= T ->
  let k := admm_run ki T u dt init oks in
  admm_update1 ki T u dt init 0 ok (step_back (admm_update1 ki T u dt init 0 true k)) = admm_update1 ki T u dt init 0 ok k.
Proof.
  intros ki T u dt init oks ok TP UP UT k.
  destruct (admm_run_steady ki T TP u dt UP UT init oks) as (S & W & I & C). fold k in S, W, I, C.
  unfold admm_update1 at 2. destruct k as [cur prev n it]. cbn [k_cur k_prev k_shifts k_iter] in *.
  assert (R0 : forall x, x + INR 0 * dt = x) by (intro x; simpl; ring). rewrite R0.
  assert (N : forall c m, shift_count ki T c c m = m).
  { intros c m. unfold shift_count. rewrite Z.ltb_irrefl. reflexivity. }
  destruct (Nat.leb_spec init it) as [A|A]; unfold step_back; cbn [k_cur k_prev k_shifts k_iter];
    replace (Datatypes.S it - 1)%nat with it by lia; unfold admm_update1; cbn [k_cur k_prev k_shifts k_iter]; rewrite !R0.
  - rewrite N. destruct ok; [|reflexivity]. destruct (Nat.leb_spec init it); [reflexivity|lia].
  - destruct (W ltac:(cbn [k_iter]; lia)) as [W1 W2]. cbn [k_cur k_prev] in W1, W2. rewrite W1, W2, !N.
    destruct ok; [|reflexivity]. destruct (Nat.leb_spec init it); [lia|reflexivity].
Qed.

Theorem two_steps_back_refuted : exists ki T u dt init oks,
  let k := admm_run ki T u dt init oks in
  k_cur (step_back (step_back k)) <> k_cur k - 2 * u /\ k_iter (step_back (step_back k)) = (k_iter k - 2)%nat.
Proof.
  exists 10%nat, 10, (1 / 2), 1, 0%nat, [true; true]. cbv zeta.
  split; [|reflexivity]. unfold admm_run, admm_update1, step_back, clock0.
  cbn [fold_left k_cur k_prev k_shifts k_iter Nat.leb INR]. lra.
Qed.

(** the z update and the residuals of the same iteration are computed for the
    time of the x update exactly during the initial iterations *)
Theorem z_update_time : forall ki T u dt init shift k, 0 < u ->
  z_time (admm_update1 ki T u dt init shift true k) = x_time dt shift k <-> (k_iter k < init)%nat.
Proof.
  intros ki T u dt init shift k UP. unfold z_time, x_time, admm_update1.
  destruct (Nat.leb_spec init (k_iter k)) as [A|A]; cbn [k_cur]; split; intro H; try lia; try reflexivity; lra.
Qed.

Theorem z_update_late : forall ki T u dt init shift k, (init <= k_iter k)%nat ->
  z_time (admm_update1 ki T u dt init shift true k) = x_time dt shift k + u.
Proof.
  intros ki T u dt init shift k H. unfold z_time, x_time, admm_update1.
  destruct (Nat.leb_spec init (k_iter k)); [reflexivity|lia].
Qed.
