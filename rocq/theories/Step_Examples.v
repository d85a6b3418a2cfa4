(** Examples and counterexamples for simulations by hand. *)
From Coq Require Import Reals QArith Qreals ZArith Lra Lia List Arith Bool.
From Coq Require Lqa.
From Verif Require Import Spline_Model Spline_Spec Splop_Spec Vehicle_Model Vehicle_Spec Lift_Model Lift_Spec
  Loop_Model Loop_Spec Loop_Proofs Loop_Proofs2 Loop_Proofs3 Loop_Examples Loop_Examples2 Loop_Examples3
  Mission_Model Mission_Spec Mission_Proofs Mission_Examples Step_Model Step_Spec Step_Proofs Step_Proofs2 Step_Proofs3 Step_Proofs4.
From Verif Require Grid_Model Timing_Model Timing_Proofs Timing_Proofs2.
Import ListNotations.
Local Open Scope R_scope.
Local Notation length := List.length.

(** samples of a tenth of a second, updates of half a second *)
Definition g1 : settings := mkSet (1#10) (1#2) 4 2 2 false false.
Lemma g1_steady : steady g1 5.
Proof. unfold steady. cbn. repeat split; try reflexivity; try lia; discriminate. Qed.
Lemma g1_whole : whole_horizon g1 40.
Proof. unfold whole_horizon. cbn. repeat split; try reflexivity; lia. Qed.
Lemma g0_whole : whole_horizon g0 8.
Proof. unfold whole_horizon. cbn. repeat split; try reflexivity; lia. Qed.
Lemma a0_proper1 : proper_answer g1 a0.
Proof. exact a0_proper. Qed.
Definition start0 : world := world0 [0; 0] [1/4; 0] [o0].

(** a vehicle at speed 1/4 has not stopped *)
Lemma moving_on : forall w l goal, log w = Some l -> c_input (last l no_column) = [1/4; 0] -> stop_criterium (1/10) goal w = false.
Proof.
  intros w l goal E I. unfold stop_criterium. rewrite E, I. cbv zeta. unfold arrived.
  destruct (norm_x (1/4) ltac:(lra)) as [-> _].
  unfold gtb at 2. destruct (Rlt_dec (1/10) (norm (vsub (c_state (last l no_column)) goal))); cbn [py_or py_num].
  - unfold gtb. destruct (Rlt_dec (1/10) 1); [reflexivity|lra].
  - unfold gtb. destruct (Rlt_dec (1/10) (1/4)); [reflexivity|lra].
Qed.
Lemma first_step : forall g m u goal, steady g m -> proper_answer g a0 -> horizon g = horizon g0 -> dim g = 2%nat ->
  exists w s, step g (1/10) goal u a0 start0 = Some (w, s) /\ sh_stop s = false.
Proof.
  intros g m u goal ST PA HZ DM.
  destruct (update_shape g m a0 _ _ ST PA (prepared_first g [0; 0] [1/4; 0] [o0])) as (p & L & P & U).
  unfold step, start0. rewrite U. eexists. eexists. split; [reflexivity|]. cbn [sh_stop].
  pose proof ST as (A & M1 & UM & KP & KH).
  eapply moving_on; [reflexivity|]. rewrite last_appended by exact M1. rewrite appended_nth by lia. cbn [c_input].
  destruct (P m (Nat.le_refl m)) as (_ & _ & I & _). rewrite I, DM. cbn [now start_time]. cbn [seq map].
  assert (CE : forall r o i t, course g a0 r o i t = course g0 a0 r o i t) by (intros; unfold course; rewrite HZ; reflexivity).
  rewrite !CE.
  assert (R0 : Q2R (rel g 0 0) = 0).
  { rewrite (Qeq_eqR _ _ (rel_0 g 0 0 (Qeq_refl 0))). unfold Q2R; cbn; lra. }
  assert (B : 0 <= (Q2R (rel g 0 0) + INR m * Q2R (ts g)) / 4 <= 1).
  { rewrite R0. pose proof (Q2R_pos _ A). pose proof (pos_INR m).
    assert (X : INR m * Q2R (ts g) = Q2R (upd g)) by (rewrite (Qeq_eqR _ _ UM), Q2R_nat; reflexivity).
    assert (Y : (upd g <= 4)%Q).
    { change 4%Q with (horizon g0). rewrite <- HZ. Lqa.lra. }
    apply Qle_Rle in Y. replace (Q2R 4) with 4 in Y by (unfold Q2R; cbn; field).
    assert (0 <= INR m * Q2R (ts g)) by (apply Rmult_le_pos; lra). rewrite X in *. lra. }
  destruct (course0 (rel g 0 0) _ B) as (_ & _ & -> & ->). reflexivity.
Qed.

(** stepping with the default argument where the update time is longer: the
    second step records times that were recorded already, and the clock is not
    at the last of them *)
Theorem default_step_refuted : exists g m N a goal s i obs w1 s1 w2 s2 l, steady g m /\ whole_horizon g N /\ proper_answer g a /\
  step g (1/10) goal default_step a (world0 s i obs) = Some (w1, s1) /\ step g (1/10) goal default_step a w1 = Some (w2, s2) /\
  sh_stop s1 = false /\ ~ (sh_time s1 == c_time (latest w1))%Q /\
  log w2 = Some l /\ ~ evenly (ts g) l /\
  (c_time (nth (S m) l no_column) < c_time (nth m l no_column))%Q.
Proof.
  destruct (first_step g1 5 default_step [1; 0] g1_steady a0_proper1 eq_refl eq_refl) as (w1 & s1 & E1 & N1).
  destruct (steps_even g1 5 40 (1/10) [1; 0] default_step 1 a0 a0 [0; 0] [1/4; 0] [o0] w1 s1 g1_steady g1_whole a0_proper1 a0_proper1
     (Nat.le_refl 1) ltac:(reflexivity) E1 N1) as (w2 & s2 & l1 & l2 & E2 & L1 & L2 & K1 & K2 & T1 & T2 & EV & _).
  exists g1, 5%nat, 40%nat, a0, [1; 0], [0; 0], [1/4; 0], [o0], w1, s1, w2, s2, (l1 ++ l2).
  split; [exact g1_steady|]. split; [exact g1_whole|]. split; [exact a0_proper1|]. split; [exact E1|]. split; [exact E2|].
  split; [exact N1|]. split; [|split; [exact L2|split]].
  - destruct (step_in_time g1 5 (1/10) [1; 0] default_step a0 start0 _ g1_steady a0_proper1 (prepared_first g1 _ _ _)) as (w & s & E & IFF).
    rewrite E1 in E. injection E as <- <-. rewrite IFF, N1. intros [X|[X|X]]; discriminate.
  - intros X. apply EV in X. discriminate.
  - rewrite app_nth2 by lia. rewrite app_nth1 by lia. rewrite K1, T1 by lia. replace (6 - 6)%nat with 0%nat by lia.
    rewrite T2 by lia. cbn. reflexivity.
Qed.

(** a hard stop at time zero: the clock runs ahead of what is recorded *)
Theorem hard_zero_refuted : exists g N a w e w', whole_horizon g N /\ proper_answer g a /\
  run_once g (Some (0%Q, e)) a w = Some w' /\ ~ (now w' == c_time (latest w'))%Q.
Proof.
  destruct (hard_zero g0 8 a0 start0 [0; 0] g0_whole a0_proper ltac:(cbn; discriminate)) as (w' & E & T & N & _).
  exists g0, 8%nat, a0, start0, [0; 0], w'. split; [exact g0_whole|]. split; [exact a0_proper|]. split; [exact E|].
  rewrite (N eq_refl), T. cbn. discriminate.
Qed.

(** stepping to the goal *)
Lemma steps0 : exists w s, step_until g0 (1/2) [1; 0] (upd g0) [a0; a0] start0 = Some (w, 1%nat, s).
Proof.
  rewrite (step_until_run g0 2 (1/2) [1; 0] [a0; a0] start0 g0_steady proper0).
  unfold start0. destruct run0_stops as [w ->]. cbv zeta. eexists. eexists. reflexivity.
Qed.
