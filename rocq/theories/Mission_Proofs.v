(** A run after a run: the loop goes on as a fresh one would from where the
    vehicle is, later in time. *)
From Coq Require Import Reals QArith Qround Qreals ZArith Lra Lia List Arith Bool.
From Coq Require Lqa.
From Verif Require Import Spline_Model Spline_Spec Splop_Spec Vehicle_Model Vehicle_Spec Lift_Model Lift_Spec
  Loop_Model Loop_Spec Loop_Proofs Loop_Proofs2 Loop_Proofs3 Loop_Proofs9 Mission_Model Mission_Spec.
From Verif Require Grid_Model Timing_Model Timing_Proofs Timing_Proofs2.
Import ListNotations.
Local Open Scope R_scope.

(** the same column, t seconds later *)
Definition later (t : Q) (c C : column) : Prop :=
  (c_time C == c_time c + t)%Q /\ c_state C = c_state c /\ c_input C = c_input c /\ c_dinput C = c_dinput c.

Lemma integrate_ext : forall h n s us vs, (n < length us)%nat -> (n < length vs)%nat ->
  (forall j, (j <= n)%nat -> nth j us [] = nth j vs []) -> integrate h n s us = integrate h n s vs.
Proof.
  intros h n s us vs U V E. apply (nth_ext _ _ [] []); [rewrite !integrate_length; reflexivity|].
  intros j. rewrite integrate_length. induction j as [|j IH]; intros J.
  - rewrite !integrate_0. reflexivity.
  - rewrite !integrate_step by lia. rewrite IH, !E by lia. reflexivity.
Qed.

Lemma nth_map_col : forall (p : list column) j, (j < length p)%nat -> nth j (map c_input p) [] = c_input (nth j p no_column).
Proof. intros p j H. apply nth_map_in, H. Qed.

Lemma integrate_later : forall g m t p P s, (m < length p)%nat -> (m < length P)%nat ->
  (forall j, (j <= m)%nat -> later t (nth j p no_column) (nth j P no_column)) ->
  integrate (Q2R (ts g)) m s (map c_input P) = integrate (Q2R (ts g)) m s (map c_input p).
Proof.
  intros g m t p P s A B E. apply integrate_ext; rewrite ?map_length; try assumption.
  intros j J. rewrite !nth_map_col by lia. apply E, J.
Qed.

Lemma appended_later : forall g m t p P s, (m < length p)%nat -> (m < length P)%nat ->
  (forall j, (j <= m)%nat -> later t (nth j p no_column) (nth j P no_column)) ->
  forall j, (j < m)%nat -> later t (nth j (appended g m p s) no_column) (nth j (appended g m P s) no_column).
Proof.
  intros g m t p P s A B E j J.
  replace j with (S j - 1)%nat by lia. rewrite !appended_nth by lia.
  destruct (E (S j) ltac:(lia)) as (E1 & E2 & E3 & E4). unfold later. cbn [c_time c_state c_input c_dinput].
  split; [exact E1|]. split; [|split; assumption].
  unfold next_state. destruct (ideal_update g); [exact E2|].
  rewrite (integrate_later g m t p P s A B E). reflexivity.
Qed.

Lemma prepared_at : forall g m w l p, steady g m -> log w = Some l -> plan w = Some p ->
  (now w == dep_now w + upd g)%Q -> iteration0 w = false -> ~ (now w == start_time w)%Q -> (m < length p)%nat ->
  (m < length l)%nat -> (c_time (last l no_column) == now w)%Q ->
  prepared g w = Some (mkW (now w) (dep_now w) false (start_time w) (Some l) (Some p)
     (if ideal_prediction g then c_state (nth m p no_column)
      else last (integrate (Q2R (ts g)) m (c_state (nth (length l - m - 1) l no_column)) (map c_input p)) [])
     (c_input (nth m p no_column)) (obstacles w)).
Proof.
  intros g m w l p ST A B D E F G LEN TL.
  destruct (upd_samples g m ST) as [N1 N2]. pose proof (upd_pos g m ST) as UP. pose proof ST as (S1 & S2 & _).
  unfold prepared. rewrite E.
  assert (U : dep_update g w = upd g).
  { unfold dep_update. rewrite A. apply shortened_full; [exact S1|]. rewrite TL, D. ring. }
  rewrite U.
  assert (DL : dep_delay g w (upd g) = 0%Z).
  { unfold dep_delay. rewrite B, E. apply delay_0; assumption. }
  rewrite DL. unfold predict.
  assert (NS : Qeq_bool (now w) (start_time w) = false).
  { destruct (Qeq_bool (now w) (start_time w)) eqn:Q; [|reflexivity]. apply Qeq_bool_iff in Q. contradiction. }
  rewrite NS, B, N1, N2, A. rewrite Z.add_0_r.
  assert (PN : py_nth p (Z.of_nat m) = Some (nth m p no_column)).
  { unfold py_nth. assert (X : (Z.of_nat m <? 0)%Z = false) by (apply Z.ltb_ge; lia). rewrite !X, Nat2Z.id.
    apply nth_error_nth'. exact G. }
  rewrite PN. destruct (ideal_prediction g); [reflexivity|].
  assert (PL : py_nth l (- Z.of_nat m - 1) = Some (nth (length l - m - 1) l no_column)).
  { unfold py_nth. assert (X : (- Z.of_nat m - 1 <? 0)%Z = true) by (apply Z.ltb_lt; lia). rewrite X.
    assert (Y : (Z.of_nat (length l) + (- Z.of_nat m - 1) = Z.of_nat (length l - m - 1))%Z) by lia.
    rewrite Y. assert (W : (Z.of_nat (length l - m - 1) <? 0)%Z = false) by (apply Z.ltb_ge, Nat2Z.is_nonneg). rewrite W, Nat2Z.id.
    apply nth_error_nth'. lia. }
  rewrite PL, Nat2Z.id. reflexivity.
Qed.

(** the two loops after k >= 1 passes: w from the start, W after the log L, t0 later *)
Definition twin (g : settings) (m k : nat) (L : list column) (t0 : Q) (W w : world) : Prop :=
  exists c0 l Lw p P,
  log w = Some (c0 :: l) /\ log W = Some (L ++ Lw) /\ length l = (k * m)%nat /\ length Lw = (k * m)%nat /\
  c_state c0 = c_state (last L no_column) /\
  (forall j, (j < k * m)%nat -> later t0 (nth j l no_column) (nth j Lw no_column)) /\
  plan w = Some p /\ plan W = Some P /\ (m < length p)%nat /\ (m < length P)%nat /\
  (forall j, (j <= m)%nat -> later t0 (nth j p no_column) (nth j P no_column)) /\
  obstacles W = obstacles w /\ iteration0 w = false /\ iteration0 W = false /\
  (now w == inject_Z (Z.of_nat k) * upd g)%Q /\ (now W == now w + t0)%Q /\
  (now w == dep_now w + upd g)%Q /\ (now W == dep_now W + upd g)%Q /\
  (start_time w == 0)%Q /\ (start_time W == t0)%Q /\
  (c_time (last l no_column) == now w)%Q.

Lemma rel_same : forall g t s t' s', (t - s == t' - s')%Q -> (rel g t s == rel g t' s')%Q.
Proof.
  intros g t s t' s' D. unfold rel, Timing_Model.rel_time, Timing_Model.pmod.
  assert (R : (Timing_Model.round6 (t - s) == Timing_Model.round6 (t' - s'))%Q).
  { apply Qle_antisym; apply Timing_Proofs.round6_mono; rewrite D; apply Qle_refl. }
  assert (F : Qfloor (Timing_Model.round6 (t - s) / knot_time g) = Qfloor (Timing_Model.round6 (t' - s') / knot_time g)).
  { apply Qfloor_comp. rewrite R. reflexivity. }
  rewrite F, R. reflexivity.
Qed.

Lemma planned_later : forall g a t r t' r' j c C s, (t' == t + s)%Q -> (r == r')%Q ->
  planned g a t r j c -> planned g a t' r' j C -> later s c C.
Proof.
  intros g a t r t' r' j c C s E R (A1 & A2 & A3 & A4) (B1 & B2 & B3 & B4). unfold later.
  split; [rewrite A1, B1, E; ring|]. rewrite A2, B2, A3, B3, A4, B4.
  repeat split; apply map_ext; intros i; symmetry; apply course_rel, R.
Qed.

Lemma nth_last_app : forall (l k : list column) n, (0 < n)%nat -> length k = n ->
  last (l ++ k) no_column = nth (n - 1) k no_column.
Proof.
  intros l k n N E. rewrite Timing_Proofs.last_nth, app_length, app_nth2 by lia. f_equal. lia.
Qed.

(** what both prepared worlds have in common *)
Definition pair_ok (g : settings) (k : nat) (t0 : Q) (W1 w1 : world) : Prop :=
  (now w1 == inject_Z (Z.of_nat k) * upd g)%Q /\ (now W1 == now w1 + t0)%Q /\ (start_time w1 == 0)%Q /\ (start_time W1 == t0)%Q /\
  iteration0 w1 = false /\ iteration0 W1 = false /\
  p_state W1 = p_state w1 /\ p_input W1 = p_input w1 /\ obstacles W1 = obstacles w1.

Lemma twin_prepared : forall g m k L t0 W w, steady g m -> L <> [] -> (1 <= k)%nat -> twin g m k L t0 W w ->
  exists W1 w1, prepared g W = Some W1 /\ prepared g w = Some w1 /\ pair_ok g k t0 W1 w1 /\
    log W1 = log W /\ log w1 = log w /\ start_time W1 = start_time W /\ now W1 = now W.
Proof.
  intros g m k L t0 W w ST NE K (c0 & l & Lw & p & P & A1 & A2 & A3 & A4 & A5 & A6 & A7 & A8 & A9 & A10 & A11 & A12 & A13 & A14 & A15 & A16 & A17 & A18 & A19 & A20 & A21).
  pose proof (upd_pos g m ST) as UP. pose proof ST as (S1 & S2 & _).
  assert (KM : (0 < k * m)%nat) by nia. assert (KM2 : (m <= k * m)%nat) by nia.
  assert (KU : (0 < inject_Z (Z.of_nat k) * upd g)%Q).
  { apply Qmult_lt_0_compat; [apply Timing_Proofs2.zq_pos; lia|exact UP]. }
  assert (LC : last (c0 :: l) no_column = last l no_column) by (destruct l; [cbn in A3; lia|reflexivity]).
  eexists. eexists. split; [apply (prepared_at g m W (L ++ Lw) P); try assumption|split; [apply (prepared_at g m w (c0 :: l) p); try assumption|]].
  - intros X. rewrite A16, A15, A20 in X. Lqa.lra.
  - rewrite app_length. destruct L; [congruence|]. cbn [length]. lia.
  - rewrite (nth_last_app L Lw (k * m)) by lia. destruct (A6 (k * m - 1)%nat ltac:(lia)) as [X _]. rewrite X.
    rewrite A16, <- A21. rewrite Timing_Proofs.last_nth, A3. reflexivity.
  - intros X. rewrite A15, A19 in X. Lqa.lra.
  - cbn [length]. lia.
  - rewrite LC. exact A21.
  - unfold pair_ok. cbn [now start_time iteration0 p_state p_input obstacles log].
    split; [|rewrite A1, A2; repeat split; reflexivity].
    repeat split; try assumption.
    + assert (IX : c_state (nth (length (L ++ Lw) - m - 1) (L ++ Lw) no_column) = c_state (nth (length (c0 :: l) - m - 1) (c0 :: l) no_column)).
      { rewrite app_length, A4. cbn [length]. rewrite A3. destruct (Nat.eq_dec k 1) as [->|K1].
        - replace (S (1 * m) - m - 1)%nat with 0%nat by lia. cbn [nth].
          assert (LL : (0 < length L)%nat) by (destruct L; [congruence|cbn; lia]).
          rewrite app_nth1 by lia. replace (length L + 1 * m - m - 1)%nat with (length L - 1)%nat by lia.
          rewrite A5, Timing_Proofs.last_nth. reflexivity.
        - assert (KM3 : (m < k * m)%nat) by nia. rewrite app_nth2 by lia.
          replace (length L + k * m - m - 1 - length L)%nat with (k * m - m - 1)%nat by lia.
          replace (S (k * m) - m - 1)%nat with (S (k * m - m - 1)) by lia.
          change (nth (S (k * m - m - 1)) (c0 :: l) no_column) with (nth (k * m - m - 1) l no_column). apply A6. lia. }
      rewrite IX, (integrate_later g m t0 p P _ A9 A10 A11).
      destruct (ideal_prediction g); [|reflexivity]. apply (A11 m). lia.
    + apply (A11 m). lia.
Qed.

(** the clock after one more pass *)
Lemma pass_full : forall g m a w w1 p l, steady g m -> update g a w = Some (mkW (now w1) (now w1) (iteration0 w1) (start_time w1)
      (Some l) (Some p) (p_state w1) (p_input w1) (map (simulate_obstacle g (upd g)) (obstacles w1))) ->
  (c_time (last l no_column) == now w1 + upd g)%Q ->
  pass g a w = Some (mkW (now w1 + upd g) (now w1) (iteration0 w1) (start_time w1) (Some l) (Some p)
        (p_state w1) (p_input w1) (map (simulate_obstacle g (upd g)) (obstacles w1))).
Proof.
  intros g m a w w1 p l ST UE LT. pose proof ST as (S1 & _). unfold pass. rewrite UE. unfold advance.
  cbn [log now dep_now iteration0 start_time plan p_state p_input obstacles].
  assert (RA : Timing_Model.run_arg (ts g) (upd g) false (c_time (last l no_column) - now w1) = None).
  { unfold Timing_Model.run_arg. unfold Grid_Model.Qltb.
    assert (X : Qle_bool (upd g - (c_time (last l no_column) - now w1)) (ts g) = true).
    { apply Qle_bool_iff. rewrite LT. Lqa.lra. }
    rewrite X. reflexivity. }
  rewrite RA. reflexivity.
Qed.

Lemma twin_step : forall g m k L t0 W w W1 w1 a, steady g m -> proper_answer g a -> L <> [] ->
  prepared g W = Some W1 -> prepared g w = Some w1 -> pair_ok g k t0 W1 w1 ->
  (k = 0%nat /\ log W1 = Some L /\ log w1 = None /\ length (p_state w1) = dim g /\ p_state w1 = c_state (last L no_column) /\ starts_right g w1 a \/
   (1 <= k)%nat /\ log W1 = log W /\ log w1 = log w /\ twin g m k L t0 W w) ->
  exists W2 w2, pass g a W = Some W2 /\ pass g a w = Some w2 /\ twin g m (S k) L t0 W2 w2.
Proof.
  intros g m k L t0 W w W1 w1 a ST PA NE PW Pw (Q1 & Q2 & Q3 & Q4 & Q5 & Q6 & Q7 & Q8 & Q9) CASES.
  pose proof ST as (S1 & S2 & S3 & _).
  destruct (update_shape g m a W W1 ST PA PW) as (P & PL & PC & PU).
  destruct (update_shape g m a w w1 ST PA Pw) as (p & pL & pC & pU).
  assert (RR : (rel g (now w1) (start_time w1) == rel g (now W1) (start_time W1))%Q).
  { apply rel_same. rewrite Q2, Q3, Q4. ring. }
  assert (LP : forall j, (j <= m)%nat -> later t0 (nth j p no_column) (nth j P no_column)).
  { intros j J. apply (planned_later g a (now w1) _ (now W1) _ j _ _ t0 Q2 RR (pC j J) (PC j J)). }
  (* the logs before the new columns *)
  assert (SL : exists c0 l Lw, started w1 p = c0 :: l /\ started W1 P = L ++ Lw /\ length l = (k * m)%nat /\ length Lw = (k * m)%nat /\
     c_state c0 = c_state (last L no_column) /\
     (forall j, (j < k * m)%nat -> later t0 (nth j l no_column) (nth j Lw no_column))).
  { destruct CASES as [(-> & E1 & E2 & E3 & E4 & E5)|(_ & E1 & E2 & (c0 & l & Lw & p' & P' & A1 & A2 & A3 & A4 & A5 & A6 & _))].
    - unfold started. rewrite E1, E2. destruct p as [|c p]; [cbn in pL; lia|].
      exists c, [], []. cbn [firstn length]. rewrite app_nil_r. repeat split; try reflexivity; try lia.
      destruct (pC 0%nat ltac:(lia)) as (_ & X & _). cbn [nth] in X. rewrite X, <- E4.
      apply map_seq_nth; [exact E3|]. intros i Hi. replace (INR 0 * Q2R (ts g)) with 0 by (cbn; ring). apply E5, Hi.
    - exists c0, l, Lw. unfold started. rewrite E1, E2, A1, A2. repeat split; assumption || apply (A6 j H). }
  destruct SL as (c0 & l & Lw & X1 & X2 & X3 & X4 & X5 & X6). rewrite X1 in pU. rewrite X2 in PU.
  assert (LS : c_state (last (L ++ Lw) no_column) = c_state (last (c0 :: l) no_column)).
  { destruct (Nat.eq_dec (k * m) 0) as [Z|Z].
    - rewrite Z in X3, X4. destruct l; [|discriminate]. destruct Lw; [|discriminate]. rewrite app_nil_r. symmetry. exact X5.
    - rewrite (nth_last_app L Lw (k * m)) by lia. change (c0 :: l) with ([c0] ++ l). rewrite (nth_last_app [c0] l (k * m)) by lia.
      apply X6. lia. }
  rewrite LS in PU. set (s := c_state (last (c0 :: l) no_column)) in *.
  assert (AL := appended_later g m t0 p P s pL PL LP).
  assert (AT : (c_time (nth (m - 1) (appended g m p s) no_column) == now w1 + upd g)%Q).
  { rewrite appended_nth by lia. cbn [c_time]. destruct (pC m ltac:(lia)) as [X _]. rewrite X, S3. reflexivity. }
  eexists. eexists. split; [apply (pass_full g m a W W1 P _ ST PU)|split; [apply (pass_full g m a w w1 p _ ST pU)|]].
  - rewrite (nth_last_app _ _ m) by (try apply appended_length; lia). destruct (AL (m - 1)%nat ltac:(lia)) as [X _].
    rewrite X, AT, Q2. ring.
  - rewrite (nth_last_app _ _ m) by (try apply appended_length; lia). exact AT.
  - exists c0, (l ++ appended g m p s), (Lw ++ appended g m P s), p, P.
    cbn [log plan now dep_now start_time iteration0 obstacles].
    split; [reflexivity|]. split; [rewrite app_assoc; reflexivity|].
    split; [rewrite app_length, appended_length, X3; cbn; lia|]. split; [rewrite app_length, appended_length, X4; cbn; lia|].
    split; [exact X5|]. split.
    { intros j J. cbn in J. destruct (Nat.lt_ge_cases j (k * m)) as [H|H].
      - rewrite !app_nth1 by lia. apply X6, H.
      - rewrite !app_nth2 by lia. rewrite X3, X4. apply AL. lia. }
    repeat (split; [first [reflexivity | assumption]|]).
    split; [rewrite Q9; reflexivity|]. split; [exact Q5|]. split; [exact Q6|].
    split; [rewrite Q1, Nat2Z.inj_succ, <- Z.add_1_r, inject_Z_plus; ring|].
    split; [rewrite Q2; ring|]. split; [reflexivity|]. split; [reflexivity|].
    split; [exact Q3|]. split; [exact Q4|].
    rewrite (nth_last_app _ _ m) by (try apply appended_length; lia). exact AT.
Qed.

(** the world in which a run is restarted *)
Definition ready (g : settings) (W0 : world) (L : list column) : Prop :=
  log W0 = Some L /\ L <> [] /\ iteration0 W0 = true /\ length (c_state (last L no_column)) = dim g.
Definition afresh (g : settings) (W0 : world) (L : list column) : world :=
  world0 (c_state (last L no_column)) (repeat 0 (dim g)) (obstacles W0).

Lemma prepared_ready : forall g W0 L, ready g W0 L ->
  prepared g W0 = Some (mkW (now W0) (dep_now W0) false (now W0) (Some L) (plan W0) (c_state (last L no_column)) (repeat 0 (dim g)) (obstacles W0)).
Proof.
  intros g W0 L (A & _ & B & _). unfold prepared. rewrite B. unfold predict.
  assert (X : Qeq_bool (now W0) (now W0) = true) by (apply Qeq_bool_iff; reflexivity). rewrite X, A. reflexivity.
Qed.

Lemma phase_rel : forall g k t s, (t - s == inject_Z (Z.of_nat k) * upd g)%Q -> (rel g t s == phase g k)%Q.
Proof.
  intros g k t s E. rewrite (rel_same g t s (inject_Z (Z.of_nat k) * upd g) 0); [|rewrite E; ring].
  apply rel_phase; reflexivity.
Qed.

Theorem twins : forall g m (P : world -> answer -> Prop) W0 L as_, steady g m -> ready g W0 L ->
  (forall w a, P w a -> starts_right g w a) -> timeless g P -> Forall (proper_answer g) as_ ->
  all_answers P g as_ W0 ->
  all_answers P g as_ (afresh g W0 L) /\
  (forall acc, objective g as_ W0 acc = Some (acc + accrued g 0 as_)) /\
  (as_ <> [] -> exists W w, passes g as_ W0 = Some W /\ passes g as_ (afresh g W0 L) = Some w /\ twin g m (length as_) L (now W0) W w).
Proof.
  intros g m P W0 L as_ ST RD PS TP. induction as_ as [|a as_ IH] using rev_ind; intros FA AA.
  - split; [exact Logic.I|]. split; [intros acc; cbn; rewrite Rplus_0_r; reflexivity|congruence].
  - apply Forall_app in FA. destruct FA as [FA PA]. apply Forall_inv in PA.
    apply all_snoc in AA. destruct AA as [AA NA]. destruct (IH FA AA) as (A1 & A2 & A3).
    assert (LN : L <> []) by apply RD.
    assert (X : exists W w W1 w1, passes g as_ W0 = Some W /\ passes g as_ (afresh g W0 L) = Some w /\
       prepared g W = Some W1 /\ prepared g w = Some w1 /\ pair_ok g (length as_) (now W0) W1 w1 /\
       (length as_ = 0%nat /\ log W1 = Some L /\ log w1 = None /\ length (p_state w1) = dim g /\ p_state w1 = c_state (last L no_column) \/
        (1 <= length as_)%nat /\ log W1 = log W /\ log w1 = log w /\ twin g m (length as_) L (now W0) W w)).
    { destruct as_ as [|b as_].
      - exists W0, (afresh g W0 L). eexists. eexists. split; [reflexivity|]. split; [reflexivity|].
        split; [apply prepared_ready, RD|]. split; [apply prepared_first|].
        unfold pair_ok. cbn [now start_time iteration0 p_state p_input obstacles log length].
        split; [|left; repeat split; apply RD].
        split; [reflexivity|]. split; [ring|]. repeat split; reflexivity.
      - destruct (A3 ltac:(discriminate)) as (W & w & E1 & E2 & TW).
        destruct (twin_prepared g m (length (b :: as_)) L (now W0) W w ST LN ltac:(cbn; lia) TW) as (W1 & w1 & B1 & B2 & B3 & B4 & B5 & _).
        exists W, w, W1, w1. repeat (split; [assumption|]). right. split; [cbn; lia|]. repeat split; assumption. }
    destruct X as (W & w & W1 & w1 & E1 & E2 & B1 & B2 & PO & CS).
    pose proof (NA W E1 W1 B1) as PW.
    pose proof PO as (Q1 & Q2 & Q3 & Q4 & Q5 & Q6 & Q7 & Q8 & Q9).
    assert (RE : (rel g (now W1) (start_time W1) == rel g (now w1) (start_time w1))%Q).
    { apply rel_same. rewrite Q2, Q3, Q4. ring. }
    assert (Pw : P w1 a) by (apply (TP W1 w1 a); assumption).
    destruct (twin_step g m (length as_) L (now W0) W w W1 w1 a ST PA LN B1 B2 PO) as (W2 & w2 & F1 & F2 & TW).
    { destruct CS as [(C1 & C2 & C3 & C4 & C5)|CS]; [left|right; exact CS]. repeat split; try assumption; apply (PS w1 a Pw i H). }
    split; [|split].
    + apply all_snoc. split; [exact A1|]. intros w' E w1' E'. rewrite E2 in E. injection E as <-. rewrite B2 in E'. injection E' as <-. exact Pw.
    + intros acc. rewrite (objective_snoc g as_ a W0 acc W (acc + accrued g 0 as_) E1 (A2 acc)).
      cbn [objective]. rewrite B1, F1. f_equal. rewrite accrued_snoc. cbn [plus].
      rewrite (part_share g m a _ _ (length as_) ST); [ring|]. apply phase_rel. rewrite Q2, Q4, Q1. ring.
    + intros _. exists W2, w2. rewrite !passes_snoc, E1, E2. split; [exact F1|]. split; [exact F2|].
      rewrite app_length. cbn [length]. replace (length as_ + 1)%nat with (S (length as_)) by lia. exact TW.
Qed.
