(** What does not hold: with ideal updates the vehicle jumps when it sleeps, and
    the reported objective is not that of the last run. *)
From Coq Require Import String Reals QArith Qreals ZArith Lra Lia List Arith Bool.
From Coq Require Lqa.
From Verif Require Import Spline_Model Spline_Spec Spline_Proofs3 Splop_Spec Splop_Proofs4 Vehicle_Model Vehicle_Spec Vehicle_Proofs Lift_Model Lift_Spec Lift_Proofs Lift_Proofs2
  Lift_Examples Lift_Examples2 Obst_Model Spline_Proofs Concat_Proofs8
  Loop_Model Loop_Spec Loop_Proofs Loop_Proofs2 Loop_Proofs3 Loop_Proofs4 Loop_Proofs5 Loop_Proofs6 Loop_Proofs7 Loop_Proofs9 Loop_Proofs10 Loop_Proofs11 Loop_Examples Loop_Proofs12 Loop_Examples2 Loop_Examples3
  Mission_Model Mission_Spec Mission_Proofs Mission_Proofs2 Mission_Proofs3 Mission_Proofs4 Mission_Proofs5 Mission_Proofs6 Mission_Examples Mission_Examples2.
From Verif Require Timing_Model Timing_Proofs Timing_Proofs2 Obst_Proofs Obst_Spec Guess_Proofs.
Import ListNotations.
Local Open Scope R_scope.
Local Notation length := List.length.

Lemma a0_proper1 : proper_answer g1 a0.
Proof. exact a0_proper. Qed.
Lemma fairj : fair g1 0 lim0 V0 (1/2) (1/10) (Drive [1; 0] [a0]) S0.
Proof.
  split; [constructor; [exact a0_proper1|constructor]|]. split; [|intros; exact Logic.I].
  intros w1 E. change (reset (world_of S0)) with (world0 [0; 0] [1/4; 0] [o0]) in E. rewrite prepared_first in E. injection E as <-.
  destruct (o0_after 0) as (X1 & X2 & X3 & X4 & _).
  change (accepted g0 0 lim0 [1; 0] V0 (1/2) (1/10) (mkW 0 0 false 0 None None [0; 0] [1/4; 0] [o0]) a0).
  apply (a0_accepted _ 0 o0); cbn [now start_time p_state p_input obstacles]; auto; try reflexivity.
  - split; discriminate.
  - f_equal. unfold Q2R; cbn; field.
Qed.

Theorem rest_jumps : exists g m stol tol b limits vchk rv sd legs x0 i0 obs s l,
  steady g m /\ consistent g /\ dim g = 2%nat /\ stol < 1 /\ 0 <= tol /\
  holonomic_constraints "norm_inf" b (Q2R (horizon g)) = Some limits /\
  reaches g stol tol limits vchk rv sd legs x0 i0 obs s /\ log (world_of s) = Some l /\
  let L := holonomic_limits b in vxmin L <= 0 <= vxmax L /\ vymin L <= 0 <= vymax L /\
  exists j, (S j < length l)%nat /\
    vxmax L * Q2R (ts g) < nth 0 (c_state (nth (S j) l no_column)) 0 - nth 0 (c_state (nth j l no_column)) 0.
Proof.
  set (F := fine g1 0 lim0 [1; 0] V0 (1/2) (1/10)).
  assert (TL : timeless g1 F) by apply fine_timeless. pose proof fairj as [FA AA].
  assert (SR : forall w a, F w a -> starts_right g1 w a) by (apply (fine_starts g1 2); [exact g1_steady|cbn; lia]).
  assert (AF : all_answers F g1 [a0] (reset (world_of S0))) by (apply fine_all; assumption).
  assert (PL : placed g1 S0 [0; 0] [1/4; 0]) by (split; [reflexivity|]; split; [reflexivity|]; left; reflexivity).
  assert (W : within g1 [a0] (slope (1/4)) (slope (1/4)) (slope 0) (slope 0)) by exact (within_a 1).
  assert (DR : exists s, drive g1 (3/4) [1; 0] [a0] S0 = Some s).
  { destruct (loop_moves g1 2 F [0; 0] [1/4; 0] [o0] [a0] g1_steady eq_refl eq_refl eq_refl ltac:(discriminate) SR FA AF) as (p & v & MV).
    apply (drive_progress g1 2 F (3/4) [1; 0] [a0] S0 [0; 0] [1/4; 0] p v 1); try assumption; try exact g1_steady; try reflexivity; try lra; try (cbn; lia).
    assert (E : 0 <= at_update g1 1 <= at_update g1 1) by (change (at_update g1 1) with (at_update g0 1); rewrite at0; cbn; lra).
    destruct (straight g1 (1/4) [a0] _ _ _ p v g1_steady eq_refl FA ltac:(discriminate) W MV 0%nat _ ltac:(lia) E) as [A B].
    destruct (straight g1 (1/4) [a0] _ _ _ p v g1_steady eq_refl FA ltac:(discriminate) W MV 1%nat _ ltac:(lia) E) as [C D].
    unfold slope in A, B, C, D. cbn [Nat.eqb nth] in A, B, C, D. change (at_update g1 1) with (at_update g0 1) in *. rewrite at0 in *. cbn [INR] in A, B, C, D |- *.
    apply (near_x g1 (1/4) (1/4) 1 (3/4) p v 1 eq_refl); lra. }
  destruct DR as (s1 & DR).
  destruct (drive_facts g1 2 (3/4) 0 lim0 V0 (1/2) (1/10) g1_steady eq_refl ltac:(lra) ltac:(cbn; lia) [1; 0] [a0] S0 s1 [0; 0] [1/4; 0] PL fairj DR)
    as (k & p & v & TR & _ & OB & LA & _).
  pose proof TR as (KL & MV & l0 & l & E1 & E2 & E3 & E4). cbn [length] in KL. assert (k = 0%nat) by lia. subst k. cbn [firstn] in MV. cbn [Nat.mul Nat.add] in E2.
  assert (NE : l0 ++ l <> []) by (destruct l; [discriminate|intros C; apply app_eq_nil in C; destruct C; discriminate]).
  assert (LS : c_state (last (l0 ++ l) no_column) = [1/4; 0]).
  { rewrite (nth_last_app l0 l 2) by (try lia; exact E2). destruct (E3 1%nat ltac:(rewrite E2; lia)) as (_ & X & _). change (2 - 1)%nat with 1%nat. rewrite X.
    change (ts g1) with (ts g0).
    assert (E : 0 <= INR 2 * Q2R (ts g0) <= at_update g1 1) by (change (at_update g1 1) with (at_update g0 1); rewrite at0, h0; cbn; lra).
    destruct (straight g1 (1/4) [a0] _ _ _ p v g1_steady eq_refl FA ltac:(discriminate) W MV 0%nat _ ltac:(lia) E) as [_ B].
    destruct (straight g1 (1/4) [a0] _ _ _ p v g1_steady eq_refl FA ltac:(discriminate) W MV 1%nat _ ltac:(lia) E) as [_ D].
    unfold slope in B, D. cbn [Nat.eqb nth] in B, D. change (dim g1) with 2%nat. change (seq 0 2) with [0%nat; 1%nat]. cbn [map]. rewrite B, D, h0.
    replace (INR 2) with 2 by (cbn; ring). f_equal; [field|f_equal; field]. }
  assert (PL1 : placed g1 s1 [1/4; 0] [0; 0]).
  { split; [reflexivity|]. split; [reflexivity|]. right. split; [reflexivity|]. exists (l0 ++ l). repeat split; assumption. }
  destruct (rest_ok g1 2 1 2 s1 [1/4; 0] [0; 0] (l0 ++ l) a0 g1_steady PL1 E1 NE LA a0_proper1 ltac:(lia) ltac:(reflexivity))
    as (s2 & lr & R1 & R2 & R3 & R4 & _).
  exists g1, 2%nat, (3/4), 0, no_bounds, lim0, V0, (1/2), (1/10), [Drive [1; 0] [a0]; Rest 1], [0; 0], [1/4; 0], [o0], s2, ((l0 ++ l) ++ lr).
  split; [exact g1_steady|]. split; [reflexivity|]. split; [reflexivity|]. split; [lra|]. split; [lra|]. split; [reflexivity|].
  split.
  { split; [reflexivity|]. split; [reflexivity|]. split.
    - split; [exact fairj|]. intros s' _. split; [exists 2%nat; split; [lia|reflexivity]|]. intros s'' _. exact Logic.I.
    - cbn [mission do_leg]. change (trip0 [0; 0] [1 / 4; 0] [o0]) with S0. rewrite DR, R1. reflexivity. }
  split; [exact R2|]. intros L.
  assert (VX : vxmax L = 1/2 /\ vxmin L = - (1/2) /\ vymax L = 1/2 /\ vymin L = -(1/2)).
  { unfold L, holonomic_limits, no_bounds, dflt. cbn. repeat split; lra. }
  destruct VX as (V1 & V2 & V3 & V4). split; [lra|]. split; [lra|].
  exists (length (l0 ++ l) - 1)%nat. assert (LN : (1 <= length (l0 ++ l))%nat) by (rewrite app_length; lia).
  split; [rewrite (app_length (l0 ++ l)), R3; lia|].
  rewrite (app_nth1 (l0 ++ l) lr no_column (n := length (l0 ++ l) - 1)) by lia. rewrite <- Timing_Proofs.last_nth, LS.
  rewrite (app_nth2 (l0 ++ l) lr) by lia. replace (S (length (l0 ++ l) - 1) - length (l0 ++ l))%nat with 0%nat by lia.
  destruct (R4 0%nat ltac:(lia)) as (_ & X & _). rewrite X. change (dim g1) with 2%nat. change (seq 0 2) with [0%nat; 1%nat]. cbn [map nth ideal_update g1].
  unfold plan_end. change (dim g1) with 2%nat. change (seq 0 2) with [0%nat; 1%nat]. cbn [map nth].
  change (path a0 0) with (mkS cbasis [0; 1/3; 2/3; 1]). rewrite cseg_call by lra. change (ts g1) with (ts g0). rewrite h0, V1. lra.
Qed.

(** the objective of the example grows in the first run *)
Lemma cost1 : forall s1, drive g0 (1/2) [1; 0] [a0; a0] S0 = Some s1 -> 0 < cost s1.
Proof.
  intros s1 DR. destruct leg1 as (s & p & v & DR' & TR & _). rewrite DR in DR'. injection DR' as <-.
  assert (RC : reaches g0 (1/2) 0 lim0 V0 (1/2) (1/10) [] [0; 0] [1/4; 0] [o0] S0).
  { split; [reflexivity|]. split; [reflexivity|]. split; [exact Logic.I|reflexivity]. }
  pose proof (mission_cost g0 2 (1/2) no_bounds lim0 V0 (1/2) (1/10) g0_steady eq_refl eq_refl eq_refl [] [0; 0] [1/4; 0] [o0] S0 [1; 0] [a0; a0] s1
    [0; 0] [1/4; 0] 1 p v ltac:(lra) RC fair1 DR placed0 TR (fun i t => if (i =? 0)%nat then t - t ^ 2 / 8 else 0)) as MC.
  cbv zeta in MC. destruct TR as (_ & MV & _). cbn [firstn] in MV.
  assert (ST1 := straight g0 (1/4) [a0; a0] _ _ _ p v g0_steady eq_refl proper0 ltac:(discriminate) (within_a 2) MV). cbn [length] in ST1.
  rewrite at0 in *. replace (INR 2) with 2 in * by (cbn; ring). rewrite U0 in MC.
  assert (SL : forall i, (i < 2)%nat -> slip g0 (holonomic_limits no_bounds) i 1 = 1/4).
  { intros [|[|i]] Hi; try lia; unfold slip; cbn [ideal_update g0]; rewrite h0; unfold two; cbn [Nat.eqb]; unfold holonomic_limits, no_bounds, dflt; cbn; field. }
  rewrite !SL in MC by lia. cbn [Nat.eqb cost S0 trip0] in MC.
  enough (1 <= cost s1) by lra.
  assert (MC' : 2 - 2 ^ 2 / 8 - (0 - 0 ^ 2 / 8) + (0 - 0) <= cost s1 - 0 + 2 * (1 / 2 * (1 / 4 + 1 / 4))).
  { apply MC. intros [|[|i]] t Hi Ht; try lia; destruct (ST1 _ t Hi Ht) as [_ E]; rewrite E; unfold slope; cbn [Nat.eqb nth].
    - replace (Rabs (0 + 1 / 4 * t - 1)) with (1 - t / 4) by (rewrite Rabs_left by lra; field).
      intros eps Heps. exists (4 * eps). split; [lra|]. intros h Hh Hd _.
      replace ((t + h - (t + h) ^ 2 / 8 - (t - t ^ 2 / 8)) / h - (1 - t / 4)) with (- (h / 8)) by (field; exact Hh).
      rewrite Rabs_Ropp. unfold Rdiv. rewrite Rabs_mult, (Rabs_pos_eq (/ 8)) by lra. lra.
    - replace (Rabs (0 + 0 * t - 0)) with 0 by (rewrite Rmult_0_l, Rplus_0_r, Rminus_0_r, Rabs_R0; reflexivity).
      intros eps Heps. exists 1. split; [lra|]. intros h Hh Hd _. replace ((0 - 0) / h - 0) with 0 by (field; exact Hh). rewrite Rabs_R0. exact Heps. }
  lra.
Qed.

Theorem objective_of_run : exists g m stol tol limits vchk rv sd legs x0 i0 obs s goal as_ s',
  steady g m /\ consistent g /\ reaches g stol tol limits vchk rv sd legs x0 i0 obs s /\ fair g tol limits vchk rv sd (Drive goal as_) s /\ drive g stol goal as_ s = Some s' /\ exists J, objective g as_ (reset (world_of s)) 0 = Some J /\ cost s' <> J.
Proof.
  destruct leg2 as (s1 & s2 & DR & RS & PL2 & OB & LA & _). destruct mission0 as (s & RC & F3 & PL & _ & s' & p & v & DD & TR).
  exists g0, 2%nat, (1/2), 0, lim0, V0, (1/2), (1/10), [d1; Rest 1], [0; 0], [1/4; 0], [o0], s, [0; 0], [b0], s'.
  split; [exact g0_steady|]. split; [reflexivity|]. split; [exact RC|]. split; [exact F3|]. split; [exact DD|].
  assert (ES : s = s2).
  { destruct RC as (_ & _ & _ & MS). cbn [mission do_leg d1] in MS. change (trip0 [0; 0] [1 / 4; 0] [o0]) with S0 in MS. rewrite DR, RS in MS. injection MS as <-. reflexivity. }
  assert (CS : cost s = cost s1).
  { rewrite ES. unfold rest in RS. destruct (log (world_of s1)); [|discriminate]. destruct (last_answer s1); [|discriminate].
    match type of RS with match ?c with _ => _ end = _ => destruct c; [|discriminate] end.
    match type of RS with match ?c with _ => _ end = _ => destruct c; [|discriminate] end. injection RS as <-. reflexivity. }
  pose proof (cost1 s1 DR) as C1.
  destruct (drive_facts g0 2 (1/2) 0 lim0 V0 (1/2) (1/10) g0_steady eq_refl ltac:(lra) ltac:(cbn; lia) [0; 0] [b0] s s' _ _ PL F3 DD)
    as (k & p' & v' & TR' & _ & _ & _ & CC & _).
  assert (k = 0%nat) by (destruct TR' as (KL & _); cbn in KL; lia). subst k. cbn [firstn] in CC.
  pose proof PL as (_ & _ & [PC|(_ & L & D1 & D2 & D3)]).
  { exfalso. destruct RC as (_ & _ & _ & MS). rewrite ES in PC. clear - RS PC. unfold rest in RS. destruct (log (world_of s1)); [|discriminate]. destruct (last_answer s1); [|discriminate].
    match type of RS with match ?c with _ => _ end = _ => destruct c; [|discriminate] end.
    match type of RS with match ?c with _ => _ end = _ => destruct c; [|discriminate] end. injection RS as <-. discriminate. }
  destruct (ready_reset g0 s _ _ L PL D1 D2) as (RD & _ & _). destruct F3 as [FA AA].
  destruct (twins g0 2 (fine g0 0 lim0 [0; 0] V0 (1/2) (1/10)) (reset (world_of s)) L [b0] g0_steady RD) as (_ & OA & _); try assumption.
  - apply (fine_starts g0 2); [exact g0_steady|cbn; lia].
  - apply fine_timeless.
  - apply fine_all; assumption.
  - exists (0 + accrued g0 0 [b0]). split; [apply OA|]. rewrite CC, CS. lra.
Qed.
