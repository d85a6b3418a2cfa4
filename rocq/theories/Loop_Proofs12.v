(** With one of the options ideal_prediction and ideal_update set and the
    other not, the predicted state is not the simulated one. *)
From Coq Require Import Reals QArith Qreals ZArith Lra Lia List Arith Bool.
From Coq Require Lqa.
From Verif Require Import Spline_Model Spline_Spec Splop_Spec Vehicle_Model Vehicle_Spec Obst_Model Lift_Model Lift_Spec Concat_Proofs8
  Loop_Model Loop_Spec Loop_Proofs Loop_Proofs2 Loop_Proofs3 Loop_Examples.
From Verif Require Grid_Model Timing_Model Timing_Proofs Timing_Proofs2 Obst_Proofs.
Import ListNotations.
Local Open Scope R_scope.

(* one cubic t^3/8 on a horizon of two seconds *)
Definition g_mixed (b : bool) : settings := mkSet 1 1 2 2 1 b (negb b).
Definition a_mixed : answer :=
  mkA (fun _ => mkS cbasis [0; 0; 0; 1]) (fun _ => mkS cbasis [1; 1; 1; 1]) (fun _ _ => mkS Lift_Examples.zbasis [0]).
Lemma mixed_steady : forall b, steady (g_mixed b) 1.
Proof. intros b. unfold steady. cbn. repeat split; try reflexivity; try lia; discriminate. Qed.
Lemma c_simple : forall a b c d t, 0 < t < 1 -> mult_le (sbasis (mkS cbasis [a; b; c; d])) t 1.
Proof. 
  intros a b c d t Ht. destruct (cube_regular a b c d) as (_ & _ & _ & M). apply M, Ht.
Qed.
Lemma cubic_proper : forall g c s h, (forall i, (i < dim g)%nat -> exists a b d e, c i = mkS cbasis [a; b; d; e]) ->
  (forall i, (i < dim g)%nat -> exists a b d e, s i = mkS cbasis [a; b; d; e]) -> (forall k j, on_unit (h k j)) -> proper_answer g (mkA c s h).
Proof.
  intros g c s h C S H. split; [|split; [|exact H]]; cbn [path slack]; intros i Hi.
  - destruct (C i Hi) as (a & b & d & e & ->). split; [apply c_unit|]. split; [reflexivity|]. intros t. apply c_simple.
  - destruct (C i Hi) as (a & b & d & e & ->). destruct (S i Hi) as (a' & b' & d' & e' & ->). split; [apply c_unit|reflexivity].
Qed.
Lemma mixed_proper : forall b, proper_answer (g_mixed b) a_mixed.
Proof.
  intros b. apply cubic_proper; [| |intros; apply Lift_Examples2.z_unit]; intros i _; do 4 eexists; reflexivity.
Qed.
Lemma mixed_course : forall b r t, 0 <= (Q2R r + t) / 2 <= 1 ->
  course (g_mixed b) a_mixed r 0 0 t = ((Q2R r + t) / 2) ^ 3 /\
  course (g_mixed b) a_mixed r 1 0 t = 3 / 2 * ((Q2R r + t) / 2) ^ 2.
Proof.
  intros b r t H. unfold course, a_mixed. cbn [path horizon g_mixed]. replace (Q2R 2) with 2 by (unfold Q2R; cbn; field). split.
  - change (derivative (mkS cbasis [0; 0; 0; 1]) 0) with (mkS cbasis [0; 0; 0; 1]). rewrite cseg_call by exact H. cbn [pow]. field.
  - rewrite cube_derivative, Obst_Proofs.oseg_call by exact H. cbn [pow]. field.
Qed.
Lemma mixed_starts : forall b, all_answers (starts_right (g_mixed b)) (g_mixed b) [a_mixed] (world0 [0] [0] []).
Proof.
  intros b. split; [|intros w2 _; exact Logic.I]. intros w1 E. rewrite prepared_first in E. injection E as <-. intros i Hi. cbn in Hi.
  assert (i = 0)%nat by lia. subst i. cbn [now start_time p_state p_input nth].
  assert (R : (rel (g_mixed b) 0 0 == 0)%Q) by reflexivity.
  rewrite !(course_rel _ _ _ _ _ _ _ R).
  assert (Z : Q2R 0 = 0) by (unfold Q2R; cbn; field).
  destruct (mixed_course b 0 0) as [A B]; [rewrite Z; lra|]. rewrite A, B, Z. split; field.
Qed.

Theorem mixed_options : forall b : bool, exists g m a s0 i0 w l w1,
  steady g m /\ ideal_prediction g = b /\ ideal_update g = negb b /\ proper_answer g a /\
  all_answers (starts_right g) g [a] (world0 s0 i0 []) /\
  passes g [a] (world0 s0 i0 []) = Some w /\ log w = Some l /\ prepared g w = Some w1 /\
  c_state (last l no_column) = [if b then 3 / 16 else 1 / 8] /\ p_state w1 = [if b then 1 / 8 else 3 / 16].
Proof.
  intros b. set (g := g_mixed b). pose proof (mixed_steady b) as ST. fold g in ST.
  assert (PR := prepared_first g [0] [0] []).
  destruct (update_shape g 1 a_mixed _ _ ST (mixed_proper b) PR) as (p & PL & PC & UE). cbn [now start_time] in PC.
  assert (R : (rel g 0 0 == 0)%Q) by reflexivity.
  assert (Z : Q2R 0 = 0) by (unfold Q2R; cbn; field). assert (O : Q2R 1 = 1) by (unfold Q2R; cbn; field).
  assert (P : forall j, (j <= 1)%nat -> (c_time (nth j p no_column) == inject_Z (Z.of_nat j))%Q /\
     c_state (nth j p no_column) = [(INR j / 2) ^ 3] /\ c_input (nth j p no_column) = [3 / 2 * (INR j / 2) ^ 2]).
  { intros j J. destruct (PC j J) as (A & B & C & _). change (ts g) with 1%Q in *. change (dim g) with 1%nat in *.
    assert (IJ : 0 <= INR j <= 1) by (split; [apply pos_INR|apply le_INR in J; exact J]).
    assert (H : 0 <= (Q2R 0 + INR j * Q2R 1) / 2 <= 1) by (rewrite Z, O; lra).
    destruct (mixed_course b 0 (INR j * Q2R 1) H) as [D E].
    cbn [seq map] in B, C. rewrite (course_rel _ _ _ _ _ _ _ R) in B. rewrite (course_rel _ _ _ _ _ _ _ R) in C. unfold g in B, C. rewrite D in B. rewrite E in C. rewrite B, C, Z, O.
    split; [rewrite A; ring|]. split; do 2 f_equal; [|f_equal]; field. }
  destruct p as [|c0 [|c1 p]]; try (cbn in PL; lia).
  destruct (P 0%nat ltac:(lia)) as (T0 & S0 & I0). destruct (P 1%nat ltac:(lia)) as (T1 & S1 & I1). cbn [nth] in T0, S0, I0, T1, S1, I1.
  cbn [INR] in S0, I0, S1, I1.
  unfold started in UE. cbn [log firstn last] in UE. unfold appended in UE. cbn [seq map nth] in UE.
  set (st := next_state g 1 (c0 :: c1 :: p) (c_state c0) 1) in UE.
  set (nc := mkC (c_time c1) st (c_input c1) (c_dinput c1)) in UE.
  assert (T1Q : (c_time c1 == 1)%Q) by (rewrite T1; reflexivity).
  assert (PE : exists w, passes g [a_mixed] (world0 [0] [0] []) = Some w /\ log w = Some [c0; nc] /\ plan w = Some (c0 :: c1 :: p) /\
     now w = (0 + 1)%Q /\ dep_now w = 0%Q /\ iteration0 w = false /\ start_time w = 0%Q).
  { cbn [passes]. unfold pass. rewrite UE. eexists. split; [reflexivity|]. unfold advance. cbn [log plan now dep_now iteration0 start_time app].
    repeat split; try reflexivity.
    assert (RA : Timing_Model.run_arg (ts g) (upd g) false (c_time (last [c0; nc] no_column) - 0) = None).
    { unfold Timing_Model.run_arg, Grid_Model.Qltb. cbn [last].
      assert (X : Qle_bool (upd g - (c_time nc - 0)) (ts g) = true).
      { apply Qle_bool_iff. cbn [nc c_time]. rewrite T1Q. discriminate. }
      rewrite X. reflexivity. }
    rewrite RA. reflexivity. }
  destruct PE as (w & W1 & W2 & W3 & W4 & W5 & W6 & W7).
  pose proof (prepared_any g 1 1 w [c0; nc] (c0 :: c1 :: p) ST (le_n 1) W2 W3) as PA.
  rewrite W4, W5, W7 in PA. specialize (PA ltac:(reflexivity) ltac:(reflexivity) W6 ltac:(reflexivity) PL eq_refl).
  cbn [last] in PA. specialize (PA ltac:(cbn [nc c_time]; rewrite T1Q; reflexivity)).
  eexists g, 1%nat, a_mixed, [0], [0], w, [c0; nc], _.
  split; [exact ST|]. split; [reflexivity|]. split; [reflexivity|]. split; [apply mixed_proper|]. split; [apply mixed_starts|].
  split; [exact W1|]. split; [exact W2|]. split; [exact PA|].
  assert (IT : last (integrate (Q2R (ts g)) 1 (c_state c0) (map c_input (c0 :: c1 :: p))) [] = [3 / 16]).
  { change (ts g) with 1%Q. rewrite O. cbn [map integrate hd last]. rewrite S0, I0, I1. cbn. f_equal. field. }
  cbn [last nth Nat.sub Nat.mul p_state nc c_state]. unfold st, next_state. change (ideal_update g) with (negb b). change (ideal_prediction g) with b.
  assert (N1 : nth 1 (integrate (Q2R (ts g)) 1 (c_state c0) (map c_input (c0 :: c1 :: p))) [] = [3 / 16]).
  { rewrite <- IT. reflexivity. }
  destruct b; cbn [negb nth]; rewrite ?N1, ?IT, ?S1; split; try reflexivity; f_equal; field.
Qed.
