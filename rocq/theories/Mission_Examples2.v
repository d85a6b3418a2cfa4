(** The mission, leg by leg. *)
From Coq Require Import String Reals QArith Qreals ZArith Lra Lia List Arith Bool.
From Coq Require Lqa.
From Verif Require Import Spline_Model Spline_Spec Spline_Proofs3 Splop_Spec Splop_Proofs4 Vehicle_Model Vehicle_Spec Vehicle_Proofs Lift_Model Lift_Spec Lift_Proofs Lift_Proofs2
  Lift_Examples Lift_Examples2 Obst_Model Spline_Proofs Concat_Proofs8
  Loop_Model Loop_Spec Loop_Proofs Loop_Proofs2 Loop_Proofs3 Loop_Proofs4 Loop_Proofs5 Loop_Proofs6 Loop_Proofs7 Loop_Proofs9 Loop_Proofs10 Loop_Proofs11 Loop_Examples Loop_Proofs12 Loop_Examples2 Loop_Examples3
  Mission_Model Mission_Spec Mission_Proofs Mission_Proofs2 Mission_Proofs3 Mission_Proofs4 Mission_Proofs5 Mission_Proofs6 Mission_Examples.
From Verif Require Timing_Model Timing_Proofs Timing_Proofs2 Obst_Proofs Obst_Spec Guess_Proofs.
Import ListNotations.
Local Open Scope R_scope.
Local Notation length := List.length.

(** the same settings with both options ideal *)
Definition g1 : settings := mkSet (1#2) 1 4 2 2 true true.
Lemma g1_steady : steady g1 2.
Proof. exact g0_steady. Qed.

Definition slope (x : R) (i : nat) : R := if (i =? 0)%nat then x else 0.
Lemma lflat : forall u, 0 <= u <= 1 -> call (mkS lbasis [0; 0]) u = 0.
Proof.
  intros u H.
  assert (U : on_unit (mkS lbasis [0; 0])).
  { rewrite <- (own_d2 1) by lia. apply deriv_unit; [apply own_unit|cbn; lia]. }
  destruct (Spline_Proofs.call_hull (mkS lbasis [0; 0]) u 0 0) as [A B]; [apply U|apply U|apply Guess_Proofs.unit_domain; auto| |lra].
  intros c Hc. cbn in Hc. lra.
Qed.
Lemma phase0_unit : forall n t, 0 <= t <= 1 -> 0 <= (Q2R (phase g0 n) + t) / 4 <= 1.
Proof.
  intros n t Ht. destruct (phase_bounds g0 2 n g0_steady) as [P1 P2]. apply Qle_Rle in P1, P2. rewrite Q2R_plus in P2.
  replace (Q2R (upd g0)) with 1 in P2 by (unfold Q2R; cbn; field). rewrite T0 in P2. replace (Q2R 0) with 0 in P1 by (unfold Q2R; cbn; field). lra.
Qed.
Lemma U0 : Q2R (upd g0) = 1. Proof. unfold Q2R; cbn; field. Qed.
Lemma courseb : forall r t, 0 <= (Q2R r + t) / 4 <= 1 ->
  course g0 b0 r 0 0 t = 1/2 /\ course g0 b0 r 0 1 t = 0 /\ course g0 b0 r 1 0 t = 0 /\ course g0 b0 r 1 1 t = 0.
Proof.
  intros r t H. unfold course. rewrite T0.
  change (derivative (path b0 0) 0) with (mkS cbasis [1/2; 1/2; 1/2; 1/2]). change (derivative (path b0 1) 0) with (mkS cbasis [0; 0; 0; 0]).
  rewrite !cseg_call by exact H.
  pose proof (b_d1 0 ltac:(lia)) as D0. pose proof (b_d1 1 ltac:(lia)) as D1. change (own b0 0) with (path b0 0) in D0. change (own b0 1) with (path b0 1) in D1.
  rewrite D0, D1. rewrite !Obst_Proofs.oseg_call by exact H. repeat split; field.
Qed.
Lemma within_a : forall k, within g0 (repeat a0 k) (slope (1/4)) (slope (1/4)) (slope 0) (slope 0).
Proof.
  intros k n a i t N Hi Ht. apply nth_error_In, repeat_spec in N. subst a. change (dim g0) with 2%nat in Hi.
  rewrite U0 in Ht. pose proof (phase0_unit n t Ht) as PU. destruct (course0 (phase g0 n) t PU) as (_ & _ & C0 & C1).
  assert (C2 : course g0 a0 (phase g0 n) 2 i t = 0).
  { unfold course. rewrite T0. rewrite <- (own_path a0 i) by lia. rewrite own_d2, lflat by assumption. field. }
  destruct i as [|[|i]]; try lia; unfold slope; cbn [Nat.eqb]; rewrite C2, ?C0, ?C1; lra.
Qed.
Lemma within_b : within g0 [b0] (slope 0) (slope 0) (slope 0) (slope 0).
Proof.
  intros n a i t N Hi Ht. destruct n as [|[|n]]; try discriminate. injection N as <-. change (dim g0) with 2%nat in Hi.
  rewrite U0 in Ht. pose proof (phase0_unit 0 t Ht) as PU. destruct (courseb (phase g0 0) t PU) as (_ & _ & C0 & C1).
  assert (C2 : course g0 b0 (phase g0 0) 2 i t = 0).
  { unfold course. rewrite T0. rewrite <- (own_path b0 i) by lia. rewrite b_d2, lflat by assumption. field. }
  destruct i as [|[|i]]; try lia; unfold slope; cbn [Nat.eqb]; rewrite C2, ?C0, ?C1; lra.
Qed.
(* a motion with constant velocity *)
Lemma straight : forall g c as_ x i obs p v, steady g 2 -> dim g = 2%nat -> Forall (proper_answer g) as_ -> as_ <> [] ->
  within g as_ (slope c) (slope c) (slope 0) (slope 0) -> moves g 2 as_ x i obs p v ->
  forall j t, (j < 2)%nat -> 0 <= t <= at_update g (length as_) -> v j t = slope c j /\ p j t = nth j x 0 + slope c j * t.
Proof.
  intros g c as_ x i obs p v ST D FA NE W (w & l & _ & _ & _ & _ & P0 & DV & M) j t Hj Ht.
  destruct (motion_limits g 2 as_ p v _ _ _ _ j ST FA NE W ltac:(lia) M) as [V _].
  assert (VE : forall t, 0 <= t <= at_update g (length as_) -> v j t = slope c j) by (intros u Hu; specialize (V u Hu); lra).
  split; [apply VE, Ht|].
  pose proof (deriv_bounds 0 (at_update g (length as_)) (p j) (v j) (slope c j) (slope c j)
    (fun u Hu => DV j u ltac:(lia) Hu) V 0 t ltac:(lra) ltac:(lra) ltac:(lra)) as B.
  destruct (P0 j ltac:(lia)) as [E _]. rewrite E in B. lra.
Qed.
Lemma near_x : forall g a b c d (p v : nat -> R -> R) t, dim g = 2%nat -> p 0%nat t = a -> p 1%nat t = 0 -> v 0%nat t = b -> v 1%nat t = 0 -> 0 <= b ->
  0 <= c - a -> (c - a <= d /\ b <= d <->
  sqrt (sumsq (vsub (map (fun i => p i t) (seq 0 (dim g))) [c; 0])) <= d /\
  sqrt (sumsq (map (fun i => v i t) (seq 0 (dim g)))) <= d).
Proof.
  intros g a b c d p v t D A B C E Hb Hc. rewrite D. cbn [seq map]. rewrite A, B, C, E. unfold vsub, sumsq. cbn [combine map fst snd].
  replace ((a - c) ^ 2 + ((0 - 0) ^ 2 + 0)) with ((c - a) * (c - a)) by ring.
  replace (b ^ 2 + (0 ^ 2 + 0)) with (b * b) by ring. rewrite !sqrt_square by assumption. reflexivity.
Qed.

Definition V0 : list (R * R) := [(0, 0)].
Definition d1 : leg := Drive [1; 0] [a0; a0].
Definition d2 : leg := Drive [0; 0] [b0].
Definition S0 : trip := trip0 [0; 0] [1/4; 0] [o0].

Lemma fair1 : fair g0 0 lim0 V0 (1/2) (1/10) d1 S0.
Proof. split; [exact proper0|exact run0]. Qed.
Lemma placed0 : placed g0 S0 [0; 0] [1/4; 0].
Proof. split; [reflexivity|]. split; [reflexivity|]. left. reflexivity. Qed.
Lemma at0 : forall n, at_update g0 n = INR n.
Proof. intros n. unfold at_update. rewrite U0. ring. Qed.

(** the first run takes two updates and ends at (1/2, 0) *)
Lemma leg1 : exists s p v, drive g0 (1/2) [1; 0] [a0; a0] S0 = Some s /\ travels g0 2 1 [a0; a0] S0 s [0; 0] [1/4; 0] p v /\
  placed g0 s [1/2; 0] [0; 0] /\ obstacles (world_of s) = [obstacle_after g0 2 o0] /\ last_answer s = Some a0 /\ samples s = 4%nat.
Proof.
  set (F := fine g0 0 lim0 [1; 0] V0 (1/2) (1/10)).
  assert (TL : timeless g0 F) by apply fine_timeless.
  assert (DR : exists s, drive g0 (1/2) [1; 0] [a0; a0] S0 = Some s).
  { destruct moves0 as (p & v & MV).
    apply (drive_progress g0 2 F (1/2) [1; 0] [a0; a0] S0 [0; 0] [1/4; 0] p v 2); try assumption; try exact starts0; try exact proper0; try exact run0_fine;
      try exact g0_steady; try reflexivity; try lra; try exact placed0; try (cbn; lia).
    assert (E : 0 <= at_update g0 2 <= at_update g0 2) by (rewrite at0; cbn; lra).
    destruct (straight g0 (1/4) [a0; a0] _ _ _ p v g0_steady eq_refl proper0 ltac:(discriminate) (within_a 2) MV 0%nat _ ltac:(lia) E) as [A B].
    destruct (straight g0 (1/4) [a0; a0] _ _ _ p v g0_steady eq_refl proper0 ltac:(discriminate) (within_a 2) MV 1%nat _ ltac:(lia) E) as [C D].
    unfold slope in A, B, C, D. cbn [Nat.eqb nth] in A, B, C, D. rewrite at0 in *. cbn [INR] in A, B, C, D |- *.
    apply (near_x g0 (1/2) (1/4) 1 (1/2) p v (1 + 1) eq_refl); lra. }
  destruct DR as (s & DR). exists s.
  destruct (drive_facts g0 2 (1/2) 0 lim0 V0 (1/2) (1/10) g0_steady eq_refl ltac:(lra) ltac:(cbn; lia) [1; 0] [a0; a0] S0 s [0; 0] [1/4; 0] placed0 fair1 DR)
    as (k & p & v & TR & [N1 N2] & OB & LA & _).
  pose proof TR as (KL & MV & l0 & l & E1 & E2 & E3 & E4). cbn [length] in KL.
  assert (KK : k = 1%nat).
  { assert (K01 : k = 0%nat \/ k = 1%nat) by lia. destruct K01 as [->|]; [exfalso|assumption]. cbn [firstn] in MV.
    assert (E : 0 <= at_update g0 1 <= at_update g0 1) by (rewrite at0; cbn; lra).
    destruct (straight g0 (1/4) [a0] _ _ _ p v g0_steady eq_refl (Forall_cons _ a0_proper (Forall_nil _)) ltac:(discriminate) (within_a 1) MV 0%nat _ ltac:(lia) E) as [A B].
    destruct (straight g0 (1/4) [a0] _ _ _ p v g0_steady eq_refl (Forall_cons _ a0_proper (Forall_nil _)) ltac:(discriminate) (within_a 1) MV 1%nat _ ltac:(lia) E) as [C D].
    unfold slope in A, B, C, D. cbn [Nat.eqb nth] in A, B, C, D. rewrite at0 in *. cbn [INR] in A, B, C, D, N1.
    apply (near_x g0 (1/4) (1/4) 1 (1/2) p v 1 eq_refl) in N1; lra. }
  subst k. exists p, v. split; [exact DR|]. split; [exact TR|]. split; [|split; [exact OB|split; [exact LA|]]].
  2: { unfold samples. rewrite E1, app_length, E2. destruct E4 as [E4|(_ & E5 & _)]; [discriminate|]. rewrite E5. reflexivity. }
  split; [reflexivity|]. split; [reflexivity|]. right. split; [reflexivity|]. exists (l0 ++ l). split; [exact E1|].
  cbn [firstn] in MV. cbn [Nat.mul Nat.add] in E2.
  split; [destruct l; [discriminate|intros C; apply app_eq_nil in C; destruct C; discriminate]|].
  rewrite (nth_last_app l0 l 4) by (try lia; exact E2). destruct (E3 3%nat ltac:(rewrite E2; lia)) as (_ & X & _). change (4 - 1)%nat with 3%nat. rewrite X.
  assert (E : 0 <= INR 4 * Q2R (ts g0) <= at_update g0 2) by (rewrite at0, h0; cbn; lra).
  destruct (straight g0 (1/4) [a0; a0] _ _ _ p v g0_steady eq_refl proper0 ltac:(discriminate) (within_a 2) MV 0%nat _ ltac:(lia) E) as [_ B].
  destruct (straight g0 (1/4) [a0; a0] _ _ _ p v g0_steady eq_refl proper0 ltac:(discriminate) (within_a 2) MV 1%nat _ ltac:(lia) E) as [_ D].
  unfold slope in B, D. cbn [Nat.eqb nth] in B, D. change (dim g0) with 2%nat. change (seq 0 2) with [0%nat; 1%nat]. cbn [map]. rewrite B, D, h0.
  replace (INR 4) with 4 by (cbn; ring). f_equal; [field|f_equal; field].
Qed.

(** the pause *)
Lemma leg2 : exists s1 s2, drive g0 (1/2) [1; 0] [a0; a0] S0 = Some s1 /\ rest g0 1 s1 = Some s2 /\
  placed g0 s2 [1/2; 0] [0; 0] /\ obstacles (world_of s2) = [obstacle_after g0 3 o0] /\ last_answer s2 = Some a0 /\ samples s2 = 6%nat.
Proof.
  destruct leg1 as (s1 & p & v & DR & TR & PL & OB & LA & SM). pose proof PL as (_ & _ & [PC|(_ & L & D1 & D2 & D3)]).
  { destruct TR as (_ & _ & l0 & l & E & _). rewrite PC in E. discriminate. }
  destruct (rest_ok g0 2 1 2 s1 [1/2; 0] [0; 0] L a0 g0_steady PL D1 D2 LA a0_proper ltac:(lia) ltac:(reflexivity))
    as (s2 & l & R1 & R2 & R3 & R4 & R5 & R6 & _ & _ & R9).
  exists s1, s2. split; [exact DR|]. split; [exact R1|]. split; [|split; [rewrite R5, OB; reflexivity|split; [exact R6|]]].
  2: { unfold samples in SM |- *. rewrite D1 in SM. rewrite R2, app_length, R3. destruct L; [congruence|]. cbn [length] in SM |- *. lia. }
  split; [reflexivity|]. split; [reflexivity|]. right. split; [reflexivity|]. exists (L ++ l). split; [exact R2|].
  split; [destruct L; [congruence|discriminate]|exact R9].
Qed.

Lemma fair2 : forall s1, drive g0 (1/2) [1; 0] [a0; a0] S0 = Some s1 -> fair g0 0 lim0 V0 (1/2) (1/10) (Rest 1) s1.
Proof. intros s1 _. exists 2%nat. split; [lia|reflexivity]. Qed.
Lemma fair3 : forall s2, placed g0 s2 [1/2; 0] [0; 0] -> log (world_of s2) <> None -> obstacles (world_of s2) = [obstacle_after g0 3 o0] -> fair g0 0 lim0 V0 (1/2) (1/10) d2 s2.
Proof.
  intros s2 PL NL OB. split; [constructor; [exact b0_proper|constructor]|]. split; [|intros; exact Logic.I].
  pose proof PL as (_ & _ & [PC|(_ & L & D1 & D2 & D3)]); [rewrite PC in NL; contradiction NL; reflexivity|].
  destruct (ready_reset g0 s2 _ _ L PL D1 D2) as (RD & _ & _). intros w1 E. rewrite (prepared_ready g0 _ L RD) in E. injection E as <-.
  destruct (o0_after 3) as (X1 & X2 & X3 & X4 & _).
  apply (b0_accepted _ (obstacle_after g0 3 o0)); cbn [now start_time p_state p_input obstacles reset]; auto; reflexivity.
Qed.

(** both legs, and the third *)
Lemma mission0 : exists s, reaches g0 (1/2) 0 lim0 V0 (1/2) (1/10) [d1; Rest 1] [0; 0] [1/4; 0] [o0] s /\
  fair g0 0 lim0 V0 (1/2) (1/10) d2 s /\ placed g0 s [1/2; 0] [0; 0] /\ samples s = 6%nat /\
  exists s' p v, drive g0 (1/2) [0; 0] [b0] s = Some s' /\ travels g0 2 0 [b0] s s' [1/2; 0] [0; 0] p v.
Proof.
  destruct leg2 as (s1 & s2 & DR & RS & PL & OB & LA & SM).
  assert (NL : log (world_of s2) <> None).
  { unfold rest in RS. destruct (log (world_of s1)); [|discriminate]. destruct (last_answer s1); [|discriminate].
    match type of RS with match ?c with _ => _ end = _ => destruct c; [|discriminate] end.
    match type of RS with match ?c with _ => _ end = _ => destruct c; [|discriminate] end. injection RS as <-. discriminate. }
  pose proof (fair3 s2 PL NL OB) as F3. exists s2. split; [|split; [exact F3|split; [exact PL|split; [exact SM|]]]].
  - split; [reflexivity|]. split; [reflexivity|]. split.
    + split; [exact fair1|]. intros s' E. split; [apply fair2, E|]. intros s'' _. exact Logic.I.
    + cbn [mission do_leg d1]. change (trip0 [0; 0] [1 / 4; 0] [o0]) with S0. rewrite DR, RS. reflexivity.
  - set (F := fine g0 0 lim0 [0; 0] V0 (1/2) (1/10)). destruct F3 as [FA AA].
    assert (TL : timeless g0 F) by apply fine_timeless.
    assert (SR : forall w a, F w a -> starts_right g0 w a) by (apply (fine_starts g0 2); [exact g0_steady|cbn; lia]).
    assert (AF : all_answers F g0 [b0] (reset (world_of s2))) by (apply fine_all; assumption).
    pose proof (drive_answers g0 2 F s2 _ _ [b0] g0_steady PL SR TL FA AF) as AW.
    destruct (loop_moves g0 2 F [1/2; 0] [0; 0] (obstacles (world_of s2)) [b0] g0_steady eq_refl eq_refl eq_refl ltac:(discriminate) SR FA AW) as (p & v & MV).
    assert (DD : exists s', drive g0 (1/2) [0; 0] [b0] s2 = Some s').
    { apply (drive_progress g0 2 F (1/2) [0; 0] [b0] s2 [1/2; 0] [0; 0] p v 1); try assumption; try exact g0_steady; try reflexivity; try lra; try (cbn; lia).
      assert (E : 0 <= at_update g0 1 <= at_update g0 1) by (rewrite at0; cbn; lra).
      destruct (straight g0 0 [b0] _ _ _ p v g0_steady eq_refl FA ltac:(discriminate) within_b MV 0%nat _ ltac:(lia) E) as [A B].
      destruct (straight g0 0 [b0] _ _ _ p v g0_steady eq_refl FA ltac:(discriminate) within_b MV 1%nat _ ltac:(lia) E) as [C D].
      unfold slope in A, B, C, D. cbn [Nat.eqb nth] in A, B, C, D. cbv zeta. change (dim g0) with 2%nat. change (seq 0 2) with [0%nat; 1%nat].
      cbn [map]. rewrite A, B, C, D. unfold vsub. cbn [combine map fst snd sumsq].
      replace ((1 / 2 + 0 * at_update g0 1 - 0) ^ 2 + ((0 + 0 * at_update g0 1 - 0) ^ 2 + 0)) with ((1/2) * (1/2)) by field.
      replace (0 ^ 2 + (0 ^ 2 + 0)) with (0 * 0) by ring. rewrite !sqrt_square by lra. lra. }
    destruct DD as (s' & DD). exists s'.
    destruct (drive_facts g0 2 (1/2) 0 lim0 V0 (1/2) (1/10) g0_steady eq_refl ltac:(lra) ltac:(cbn; lia) [0; 0] [b0] s2 s' _ _ PL (conj FA AA) DD)
      as (k & p' & v' & TR & _). exists p', v'. split; [exact DD|]. destruct k as [|k]; [exact TR|]. destruct TR as (KL & _). cbn in KL. lia.
Qed.
