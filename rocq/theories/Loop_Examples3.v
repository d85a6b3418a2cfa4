(** The same run, stopped. *)
From Coq Require Import String Reals QArith Qreals ZArith Lra Lia List Arith Bool.
From Coq Require Lqa.
From Verif Require Import Spline_Model Spline_Spec Spline_Proofs Splop_Spec Vehicle_Model Vehicle_Spec Vehicle_Proofs Lift_Model Lift_Spec Lift_Proofs Lift_Proofs2
  Lift_Examples Lift_Examples2 Obst_Model Concat_Proofs8
  Loop_Model Loop_Spec Loop_Proofs Loop_Proofs2 Loop_Proofs3 Loop_Proofs6 Loop_Proofs9 Loop_Proofs10 Loop_Proofs11 Loop_Examples Loop_Proofs12 Loop_Examples2.
From Verif Require Timing_Model Timing_Proofs Timing_Proofs2 Obst_Proofs Obst_Spec.
Import ListNotations.
Local Open Scope R_scope.
Local Notation length := List.length.

Definition F0 := fine g0 0 lim0 [1; 0] [(0, 0)] (1/2) (1/10).
Lemma proper0 : Forall (proper_answer g0) [a0; a0].
Proof. constructor; [exact a0_proper|constructor; [exact a0_proper|constructor]]. Qed.
Lemma starts0 : forall w a, F0 w a -> starts_right g0 w a.
Proof. apply (fine_starts g0 2); [exact g0_steady|cbn; lia]. Qed.
Lemma run0_fine : all_answers F0 g0 [a0; a0] (world0 [0; 0] [1/4; 0] [o0]).
Proof. apply fine_all; [exact proper0|exact run0]. Qed.
Lemma moves0 : exists p v, moves g0 2 [a0; a0] [0; 0] [1/4; 0] [o0] p v.
Proof.
  apply (loop_moves g0 2 F0); auto; [exact g0_steady|reflexivity|discriminate|exact starts0|exact proper0|exact run0_fine].
Qed.

(* what is logged after one and after two passes *)
Lemma logged0 : forall k l, (1 <= k <= 2)%nat -> logs g0 2 (repeat a0 k) l ->
  c_state (last l no_column) = [INR k / 4; 0] /\ c_input (last l no_column) = [1/4; 0].
Proof.
  intros k l K (L1 & L2 & L3 & L4 & L5). change (dim g0) with 2%nat in *. change (ideal_update g0) with false in L5. cbv iota in L5.
  rewrite repeat_length in L1. change (seq 0 2) with [0%nat; 1%nat] in *. cbn [map] in L3, L4.
  assert (NE : forall n, (n < k)%nat -> nth_error (repeat a0 k) n = Some a0) by (intros n H; apply nth_error_repeat, H).
  assert (Z : Q2R 0 = 0) by (unfold Q2R; cbn; field). assert (O : Q2R 1 = 1) by (unfold Q2R; cbn; field).
  assert (PH : forall n, (n < 2)%nat -> (phase g0 n == inject_Z (Z.of_nat n))%Q).
  { intros [|[|n]] H; try lia; reflexivity. }
  assert (QP : forall n, (n < 2)%nat -> 0 <= Q2R (phase g0 n) <= 1).
  { intros [|[|n]] H; try lia; rewrite (Qeq_eqR _ _ (PH _ H)); cbn [Z.of_nat Pos.of_succ_nat]; unfold inject_Z, Q2R; cbn; lra. }
  assert (I : forall n q, (n < k)%nat -> (q <= 2)%nat -> c_input (nth (n * 2 + q) l no_column) = [1/4; 0]).
  { intros n q N Q. specialize (L3 n a0 q (NE n N) Q). rewrite L3.
    destruct (course0 (phase g0 n) (INR q * Q2R (ts g0))) as (_ & _ & C & D).
    - rewrite h0. apply le_INR in Q. pose proof (pos_INR q). replace (INR 2) with 2 in Q by (cbn; ring). pose proof (QP n ltac:(lia)). lra.
    - rewrite C, D. reflexivity. }
  assert (IA : forall j, (j < length l)%nat -> c_input (nth j l no_column) = [1/4; 0]).
  { intros j J. destruct (Nat.eq_dec j (k * 2)) as [E|E].
    - replace j with ((k - 1) * 2 + 2)%nat by lia. apply I; lia.
    - pose proof (Nat.div_mod j 2 ltac:(lia)) as DM. pose proof (Nat.mod_upper_bound j 2 ltac:(lia)) as DU. rewrite DM, Nat.mul_comm. apply I; lia. }
  assert (SA : forall j, (j < length l)%nat -> c_state (nth j l no_column) = [INR j / 8; 0]).
  { induction j as [|j IH]; intros J.
    - specialize (L4 0%nat a0 (NE 0%nat ltac:(lia))). cbn [Nat.mul] in L4. rewrite L4.
      rewrite (course_rel _ _ _ _ _ _ _ (PH 0%nat ltac:(lia))). rewrite (course_rel _ _ _ _ 0 1%nat _ (PH 0%nat ltac:(lia))).
      change (inject_Z (Z.of_nat 0)) with 0%Q. destruct (course0 0 0) as (C & D & _); [rewrite Z; lra|]. rewrite C, D, Z. cbn [INR]. f_equal. field.
    - rewrite (L5 j J), IH, !IA, h0 by lia. unfold trapezoid. rewrite S_INR. cbn. f_equal; [field|]. f_equal. field. }
  rewrite Timing_Proofs.last_nth, L1. replace (k * 2 + 1 - 1)%nat with (k * 2)%nat by lia.
  rewrite SA, IA by lia. split; [|reflexivity]. rewrite mult_INR. replace (INR 2) with 2 by (cbn; ring). f_equal. field.
Qed.

Lemma norm_x : forall x, 0 <= x -> norm [x; 0] = x /\ norm [- x; 0] = x.
Proof.
  intros x H. unfold norm. cbn [fold_right]. split.
  - replace (x * x + (0 * 0 + 0)) with (x * x) by ring. apply sqrt_square, H.
  - replace (- x * - x + (0 * 0 + 0)) with (x * x) by ring. apply sqrt_square, H.
Qed.
Lemma stop_at : forall w l k, log w = Some l -> (1 <= k <= 2)%nat -> logs g0 2 (repeat a0 k) l ->
  stop_criterium (1/2) [1; 0] w = (k =? 2)%nat.
Proof.
  intros w l k E K L. destruct (logged0 k l K L) as [A B]. unfold stop_criterium. rewrite E, A, B. cbv zeta.
  destruct (norm_x (1/4) ltac:(lra)) as [N1 _].
  assert (KK : k = 1%nat \/ k = 2%nat) by lia. unfold arrived, vsub. cbn [combine map fst snd]. rewrite N1.
  destruct KK as [-> | ->]; cbn [INR Nat.eqb].
  - replace [1 / 4 - 1; 0 - 0] with [- (3/4); 0] by (f_equal; [field|f_equal; field]).
    destruct (norm_x (3/4) ltac:(lra)) as [_ ->]. unfold gtb at 2. destruct (Rlt_dec (1/2) (3/4)); [|lra]. cbn [py_or py_num].
    unfold gtb. destruct (Rlt_dec (1/2) 1); [reflexivity|lra].
  - replace [(1 + 1) / 4 - 1; 0 - 0] with [- (1/2); 0] by (f_equal; [field|f_equal; field]).
    destruct (norm_x (1/2) ltac:(lra)) as [_ ->]. unfold gtb at 2. destruct (Rlt_dec (1/2) (1/2)); [lra|]. cbn [py_or py_num].
    unfold gtb. destruct (Rlt_dec (1/2) (1/4)); [lra|reflexivity].
Qed.
Lemma run_two : forall g tol goal a b w u1 u2, update g a w = Some u1 -> stop_criterium tol goal u1 = false ->
  update g b (advance g u1) = Some u2 -> stop_criterium tol goal u2 = true -> run g tol goal [a; b] w = Some (u2, 1%nat).
Proof. intros g tol goal a b w u1 u2 A B C D. cbn [run]. rewrite A, B, C, D. reflexivity. Qed.
Lemma passes_two : forall g a b w w1 w2, passes g [a] w = Some w1 -> passes g [a; b] w = Some w2 ->
  exists u1 u2, update g a w = Some u1 /\ update g b (advance g u1) = Some u2 /\ w1 = advance g u1 /\ w2 = advance g u2.
Proof.
  intros g a b w w1 w2. cbn [passes]. unfold pass. destruct (update g a w) as [u1|]; [|discriminate]. intros E1. injection E1 as <-.
  destruct (update g b (advance g u1)) as [u2|] eqn:U2; [|discriminate]. intros E2. injection E2 as <-. exists u1, u2. repeat split. exact U2.
Qed.
Lemma advance_log : forall g w l, log (advance g w) = Some l -> log w = Some l.
Proof. intros g w l E. exact E. Qed.
Lemma run0_stops : exists w, run g0 (1/2) [1; 0] [a0; a0] (world0 [0; 0] [1/4; 0] [o0]) = Some (w, 1%nat).
Proof.
  pose proof run0_fine as AA. assert (A1 : all_answers F0 g0 [a0] (world0 [0; 0] [1/4; 0] [o0])).
  { apply (all_prefix F0 g0 [a0] [a0]). exact AA. }
  destruct (loop_log g0 2 F0 [0; 0] [1/4; 0] [o0] [a0] g0_steady eq_refl eq_refl eq_refl starts0
    (Forall_cons _ a0_proper (Forall_nil _)) A1) as (w1 & E1 & [[C _]|(l1 & p1 & G1 & L1 & _)] & _); [discriminate|].
  destruct (loop_log g0 2 F0 [0; 0] [1/4; 0] [o0] [a0; a0] g0_steady eq_refl eq_refl eq_refl starts0 proper0 AA)
    as (w2 & E2 & [[C _]|(l2 & p2 & G2 & L2 & _)] & _); [discriminate|].
  destruct (passes_two g0 a0 a0 _ w1 w2 E1 E2) as (u1 & u2 & U1 & U2 & V1 & V2).
  destruct G1 as (G1 & _). destruct G2 as (G2 & _). subst w1 w2. apply advance_log in G1, G2.
  exists u2. apply (run_two _ _ _ _ _ _ u1 u2 U1); [|exact U2|].
  - exact (stop_at u1 l1 1 G1 (conj (le_n 1) (le_S 1 1 (le_n 1))) L1).
  - exact (stop_at u2 l2 2 G2 (conj (le_S 1 1 (le_n 1)) (le_n 2)) L2).
Qed.
