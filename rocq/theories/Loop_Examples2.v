(** A concrete run: a disc drives along the x axis, updated after one second,
    under an obstacle that moves along y = 2. *)
From Coq Require Import String Reals QArith Qreals ZArith Lra Lia List Arith Bool.
From Coq Require Lqa.
From Verif Require Import Spline_Model Spline_Spec Spline_Proofs3 Splop_Spec Splop_Proofs4 Vehicle_Model Vehicle_Spec Vehicle_Proofs Lift_Model Lift_Spec Lift_Proofs Lift_Proofs2 
  Lift_Examples Lift_Examples2 Obst_Model Spline_Proofs Concat_Proofs8
  Loop_Model Loop_Spec Loop_Proofs Loop_Proofs2 Loop_Proofs3 Loop_Proofs6 Loop_Proofs10 Loop_Proofs11 Loop_Examples Loop_Proofs12.
From Verif Require Timing_Model Timing_Proofs Timing_Proofs2 Obst_Proofs Obst_Spec.
Import ListNotations.
Local Open Scope R_scope.
Local Notation length := List.length.

Definition g0 : settings := mkSet (1#2) 1 4 2 2 false false.
Definition a0 : answer := mkA
  (fun i => match i with O => mkS cbasis [0; 1/3; 2/3; 1] | _ => mkS cbasis [0; 0; 0; 0] end)
  (fun i => match i with O => mkS cbasis [1; 2/3; 1/3; 0] | _ => mkS cbasis [0; 0; 0; 0] end)
  (fun _ j => match j with 1%nat | 2%nat => mkS zbasis [1] | _ => mkS zbasis [0] end).
Definition o0 : obstacle := mkOb [(0, 0)] (1/2) 0 [] [] (log0 (mkO 0 (1/4) 0)) (log0 (mkO 2 0 0)).
Definition lim0 : list con := holonomic_inf (holonomic_limits no_bounds) (Q2R 4).

Lemma g0_steady : steady g0 2.
Proof. unfold steady. cbn. repeat split; try reflexivity; try lia; discriminate. Qed.
Lemma a0_proper : proper_answer g0 a0.
Proof.
  apply cubic_proper.
  - intros [|i] _; do 4 eexists; reflexivity.
  - intros [|i] _; do 4 eexists; reflexivity.
  - intros k [|[|[|j]]]; apply z_unit.
Qed.
Lemma T0 : Q2R (horizon g0) = 4. Proof. unfold Q2R; cbn; field. Qed.
Lemma h0 : Q2R (ts g0) = 1/2. Proof. unfold Q2R; cbn; field. Qed.

(* limits *)
Lemma own_d1 : forall i, (i < 2)%nat -> derivative (own a0 i) 1 = mkS obasis (if (i =? 0)%nat then [1; 1; 1] else [0; 0; 0]).
Proof.
  intros [|[|i]] H; try lia; unfold own, a0; cbn [Nat.ltb Nat.leb path]; rewrite cube_derivative; cbn [Nat.eqb]; f_equal; repeat (f_equal; try field).
Qed.
Lemma own_d2 : forall i, (i < 2)%nat -> derivative (own a0 i) 2 = mkS lbasis [0; 0].
Proof.
  intros [|[|i]] H; try lia; unfold own, a0; cbn [Nat.ltb Nat.leb path]; rewrite cube_second; f_equal; repeat (f_equal; try field).
Qed.
Lemma lim0_ok : solved 0 (own a0) lim0.
Proof.
  intros c Hc. unfold lim0, holonomic_inf in Hc. replace (Q2R 4) with 4 in Hc by (symmetry; apply T0).
  repeat (destruct Hc as [<-|Hc]; [eexists; split; [cbn [le0 cexpr build o_sub o_add o_neg];
    rewrite ?own_d1, ?own_d2 by lia; reflexivity|];
  cbn [le0 clo chi entries kept coeffs add_num neg scale sbasis map Nat.eqb];
  intros v Hv; split; [exact Logic.I|]; cbn [In] in Hv; unfold holonomic_limits, no_bounds, vxmin, vymin, vxmax, vymax, axmin, aymin, axmax, aymax, dflt in Hv;
  cbn [b_vmin b_vmax b_amin b_amax b_vxmin b_vymin b_vxmax b_vymax b_axmin b_aymin b_axmax b_aymax map] in Hv; cbn [pow] in Hv;
  decompose [or] Hv; try contradiction; subst v; lra|]). destruct Hc.
Qed.

(* terminal constraints *)
Definition D_own (i : nat) : kin := IC.
Lemma D_own_ok : forall i, is_kin (D_own i) (Spl (own a0 i)).
Proof. intros i. unfold own. destruct (i <? 10)%nat; unfold a0; cbn [path slack]; [destruct i; reflexivity|]. destruct (i - 10)%nat; reflexivity. Qed.
Lemma own_unit : forall i, on_unit (own a0 i).
Proof. intros i. unfold own. destruct (i <? 10)%nat; unfold a0; cbn [path slack]; [destruct i; apply c_unit|]. destruct (i - 10)%nat; apply c_unit. Qed.
Lemma J_own : forall x, 0 <= x <= 1 -> jets (own a0) x 0%nat 0%nat = x /\ jets (own a0) x 1%nat 0%nat = 0 /\
  jets (own a0) x 10%nat 0%nat = 1 - x /\ jets (own a0) x 11%nat 0%nat = 0.
Proof.
  intros x I. rewrite (jets_c (own a0) 0 _ _ _ _ x eq_refl I), (jets_c (own a0) 1 _ _ _ _ x eq_refl I),
    (jets_c (own a0) 10 _ _ _ _ x eq_refl I), (jets_c (own a0) 11 _ _ _ _ x eq_refl I). repeat split; field.
Qed.
Ltac eval_own :=
  cbv zeta; destruct (J_own 0 ltac:(lra)) as (A0 & A1 & A2 & A3); destruct (J_own 1 ltac:(lra)) as (B0 & B1 & B2 & B3);
  destruct (J_own (1/2) ltac:(lra)) as (C0 & C1 & C2 & C3); destruct (J_own (1/3) ltac:(lra)) as (E0 & E1 & E2 & E3);
  destruct (J_own (2/3) ltac:(lra)) as (F0 & F1 & F2 & F3); cbn [sval Nat.add];
  rewrite ?A0, ?A1, ?A2, ?A3, ?B0, ?B1, ?B2, ?B3, ?C0, ?C1, ?C2, ?C3, ?E0, ?E1, ?E2, ?E3, ?F0, ?F1, ?F2, ?F3; lra.
Lemma goal0_ok : forall i, (i < 2)%nat -> solved 0 (own a0) (goal_cons i (nth i [1; 0] 0)).
Proof.
  intros i Hi. assert (F : forall i, on_unit (own a0 i) /\ (0 <= degree (sbasis (own a0 i)))%nat) by (intros; split; [apply own_unit|lia]).
  destruct i as [|[|i]]; try lia; unfold goal_cons; cbn [nth];
    (apply solved_cons; [|apply solved_cons; [|apply solved_nil]]);
    (apply (solved_kin (own a0) D_own _ IC D_own_ok); [cbn [fits]; fitall F|reflexivity|eval_own..]).
Qed.

(* initial conditions *)
Lemma start0_ok : forall t, 0 <= t <= 4 -> starts 0 (own a0) (t / 4) (init_cons 2 [t / 4; 0] [1/4; 0] 4).
Proof.
  intros t Ht tup Hin. cbn [init_cons seq map app nth In] in Hin. pose proof (own_unit 0) as U0. pose proof (own_unit 1) as U1.
  assert (I : 0 <= t / 4 <= 1) by lra.
  destruct Hin as [<-|[<-|[<-|[<-|[]]]]]; cbn [nth build]; eexists; eexists; (split; [reflexivity|split; [reflexivity|]]).
  - change (derivative (own a0 0) 0) with (mkS cbasis [0; 1/3; 2/3; 1]). rewrite evalspline_call by reflexivity. rewrite cseg_call by exact I. field.
  - change (derivative (own a0 1) 0) with (mkS cbasis [0; 0; 0; 0]). rewrite evalspline_call by reflexivity. rewrite cseg_call by exact I. field.
  - rewrite own_d1 by lia. cbn [Nat.eqb]. rewrite evalspline_call by reflexivity. rewrite Obst_Proofs.oseg_call by exact I. field.
  - rewrite own_d1 by lia. cbn [Nat.eqb]. rewrite evalspline_call by reflexivity. rewrite Obst_Proofs.oseg_call by exact I. field.
Qed.

(* collision avoidance *)
Definition D_seen (i : nat) : kin := match i with 0%nat | 1%nat => IC | 6%nat | 7%nat => IO | _ => IZ end.
Section Avoid.
Variables (o : obstacle) (t : R).
Hypothesis OC : o_chk o = [(0, 0)].
Hypothesis OR : o_rad o = 1/2.
Hypothesis OT : o_theta o = 0.
Hypothesis OY : last (lstate (o_ly o)) ost0 = mkO 2 0 0.
Let X := seen a0 0 o t 4.
Lemma D_seen_ok : forall i, is_kin (D_seen i) (Spl (X i)).
Proof. intros i. do 8 (destruct i as [|i]; [reflexivity|]). reflexivity. Qed.
Lemma X_seen_unit : forall i, on_unit (X i).
Proof. intros i. do 8 (destruct i as [|i]; [first [apply z_unit | apply o_unit | apply c_unit]|]). apply z_unit. Qed.
Lemma J_seen : forall x, 0 <= x <= 1 ->
  jets X x 0%nat 0%nat = x /\ jets X x 1%nat 0%nat = 0 /\ jets X x 2%nat 0%nat = 0 /\ jets X x 3%nat 0%nat = 1 /\
  jets X x 4%nat 0%nat = 1 /\ jets X x 5%nat 0%nat = 0 /\ jets X x 7%nat 0%nat = 2.
Proof.
  intros x I. 
  rewrite (jets_c X 0 _ _ _ _ x eq_refl I), (jets_c X 1 _ _ _ _ x eq_refl I).
  rewrite (jets_z X 2 _ x eq_refl I), (jets_z X 3 _ x eq_refl I), (jets_z X 4 _ x eq_refl I), (jets_z X 5 _ x eq_refl I).
  assert (E7 : X 7%nat = pos_spline 2 0 0 t 4) by (unfold X, seen; rewrite OY; reflexivity).
  unfold pos_spline, oseg in E7. rewrite (jets_o X 7 _ _ _ x E7 I).
  unfold back_x, back_v. repeat split; field.
Qed.
Ltac eval_seen :=
  cbv zeta; destruct (J_seen 0 ltac:(lra)) as (A0 & A1 & A2 & A3 & A4 & A5 & A6); destruct (J_seen 1 ltac:(lra)) as (B0 & B1 & B2 & B3 & B4 & B5 & B6);
  destruct (J_seen (1/2) ltac:(lra)) as (C0 & C1 & C2 & C3 & C4 & C5 & C6); destruct (J_seen (1/3) ltac:(lra)) as (E0 & E1 & E2 & E3 & E4 & E5 & E6);
  destruct (J_seen (2/3) ltac:(lra)) as (F0 & F1 & F2 & F3 & F4 & F5 & F6); cbn [sval];
  rewrite ?A0, ?A1, ?A2, ?A3, ?A4, ?A5, ?A6, ?B0, ?B1, ?B2, ?B3, ?B4, ?B5, ?B6, ?C0, ?C1, ?C2, ?C3, ?C4, ?C5, ?C6,
    ?E0, ?E1, ?E2, ?E3, ?E4, ?E5, ?E6, ?F0, ?F1, ?F2, ?F3, ?F4, ?F5, ?F6; lra.
Lemma avoid0_ok : solved 0 X (avoid_cons [(0, 0)] (1/2) (1/10) o).
Proof.
  assert (F : forall i, on_unit (X i) /\ (0 <= degree (sbasis (X i)))%nat) by (intros; split; [apply X_seen_unit|lia]). unfold avoid_cons. rewrite OC.
  assert (SD : Rltb 0 (1/10) = true) by (apply Rltb_true; lra). rewrite SD.
  unfold veh_side, obs_side, eps_sx, eps_cons. rewrite SD, OR, OT, cos_0, sin_0. cbn [map app fst snd].
  unfold norm_sx, veh_sx, obs_sx. cbv zeta.
  apply solved_cons; [apply (solved_kin X D_seen _ IZ D_seen_ok); [cbn [fits]; fitall F|reflexivity|eval_seen..]|].
  apply solved_cons; [apply (solved_kin X D_seen _ IC D_seen_ok); [cbn [fits]; fitall F|reflexivity|eval_seen..]|].
  apply solved_cons; [apply (solved_kin X D_seen _ IO D_seen_ok); [cbn [fits]; fitall F|reflexivity|eval_seen..]|].
  apply solved_cons; [apply (solved_kin X D_seen _ IZ D_seen_ok); [cbn [fits]; fitall F|reflexivity|eval_seen..]|].
  apply solved_cons; [apply (solved_kin X D_seen _ IZ D_seen_ok); [cbn [fits]; fitall F|reflexivity|eval_seen..]|].
  apply solved_nil.
Qed.
End Avoid.

Lemma a0_accepted : forall w t o, (rel g0 (now w) (start_time w) == t)%Q -> (0 <= t <= 4)%Q ->
  p_state w = [Q2R t / 4; 0] -> p_input w = [1/4; 0] -> obstacles w = [o] ->
  o_chk o = [(0, 0)] -> o_rad o = 1/2 -> o_theta o = 0 -> last (lstate (o_ly o)) ost0 = mkO 2 0 0 ->
  accepted g0 0 lim0 [1; 0] [(0, 0)] (1/2) (1/10) w a0.
Proof.
  intros w t o RT [T1 T2] PS PI OB OC OR OT OY. unfold accepted. rewrite T0, (Qeq_eqR _ _ RT), PS, PI, OB. change (dim g0) with 2%nat.
  split; [exact lim0_ok|]. split; [|split; [exact goal0_ok|]].
  - apply start0_ok. apply Qle_Rle in T1, T2. replace (Q2R 4) with 4 in T2 by (symmetry; apply T0).
    replace (Q2R 0) with 0 in T1 by (unfold Q2R; cbn; field). lra.
  - intros k o' E. destruct k as [|[|k]]; try discriminate. injection E as <-. apply avoid0_ok; assumption.
Qed.

(** one more answer *)
Lemma extend : forall g m (P : world -> answer -> Prop) s0 i0 obs as_ a, steady g m -> consistent g ->
  length s0 = dim g -> length i0 = dim g -> (forall w a, P w a -> starts_right g w a) -> as_ <> [] ->
  Forall (proper_answer g) as_ -> all_answers P g as_ (world0 s0 i0 obs) ->
  (forall w1 l, logs g m as_ l -> (now w1 == inject_Z (Z.of_nat (length as_)) * upd g)%Q -> (start_time w1 == 0)%Q ->
     p_state w1 = c_state (last l no_column) -> p_input w1 = c_input (last l no_column) ->
     obstacles w1 = map (obstacle_after g (length as_)) obs -> P w1 a) ->
  all_answers P g (as_ ++ [a]) (world0 s0 i0 obs).
Proof.
  intros g m P s0 i0 obs as_ a ST CO LS LI PS NE FA AA H. apply all_snoc. split; [exact AA|].
  intros w' E w1 PR.
  destruct (loop_log g m P s0 i0 obs as_ ST CO LS LI PS FA AA) as (w & E' & [[C _]|(l & p & G & L & _ & _)] & O & _); [contradiction|].
  rewrite E in E'. injection E' as <-.
  pose proof G as (G1 & G2 & G3 & G4 & G5 & G6 & _).
  assert (TL : (c_time (last l no_column) == now w')%Q).
  { destruct L as (L1 & L2 & _). pose proof ST as (_ & _ & S3 & _). rewrite Timing_Proofs.last_nth, G3.
    destruct (L2 (length l - 1)%nat ltac:(lia)) as [X _]. rewrite X, L1.
    replace (length as_ * m + 1 - 1)%nat with (length as_ * m)%nat by lia. rewrite S3, Nat2Z.inj_mul, inject_Z_mult. ring. }
  rewrite (prepared_going g m (length as_) w' l p ST CO) in PR; [|destruct as_; [contradiction|cbn; lia]|exact G|apply L|exact TL].
  injection PR as <-. apply (H _ l); cbn [now start_time p_state p_input obstacles]; auto.
Qed.

Lemma course0 : forall r t, 0 <= (Q2R r + t) / 4 <= 1 ->
  course g0 a0 r 0 0 t = (Q2R r + t) / 4 /\ course g0 a0 r 0 1 t = 0 /\ course g0 a0 r 1 0 t = 1/4 /\ course g0 a0 r 1 1 t = 0.
Proof.
  intros r t H. unfold course. rewrite T0.
  change (derivative (path a0 0) 0) with (mkS cbasis [0; 1/3; 2/3; 1]). change (derivative (path a0 1) 0) with (mkS cbasis [0; 0; 0; 0]).
  rewrite !cseg_call by exact H.
  pose proof (own_d1 0 ltac:(lia)) as D0. pose proof (own_d1 1 ltac:(lia)) as D1. change (own a0 0) with (path a0 0) in D0. change (own a0 1) with (path a0 1) in D1.
  rewrite D0, D1. cbn [Nat.eqb]. rewrite !Obst_Proofs.oseg_call by exact H. repeat split; field.
Qed.

(* the obstacle after n updates *)
Lemma o0_after : forall n, let o := obstacle_after g0 n o0 in o_chk o = [(0, 0)] /\ o_rad o = 1/2 /\ o_theta o = 0 /\
  last (lstate (o_ly o)) ost0 = mkO 2 0 0 /\ o_evy o = [].
Proof.
  intros n. induction n as [|n IH]; cbv zeta in *; [repeat split; reflexivity|].
  destruct IH as (A & B & C & D & E). cbn [obstacle_after]. unfold simulate_obstacle. cbn [o_chk o_rad o_theta o_ly o_evy].
  repeat split; try assumption. rewrite E. change (Z.to_nat (Timing_Model.n_samp (upd g0) (ts g0))) with 2%nat.
  unfold simulate. cbn [lstate]. rewrite D. cbn [seq map].
  rewrite Obst_Proofs2.last_nth, app_length. cbn [length]. rewrite app_nth2 by lia.
  match goal with |- nth ?k _ _ = _ => replace k with 1%nat by lia end. cbn [nth].
  unfold sample_at. cbn [incr fold_right map flow ox ov oa filter].
  match goal with |- context [Reqb ?a 0] => destruct (Reqb a 0) end; cbn; f_equal; field.
Qed.

Definition P0 := accepted g0 0 lim0 [1; 0] [(0, 0)] (1/2) (1/10).
Lemma run0 : all_answers P0 g0 [a0; a0] (world0 [0; 0] [1/4; 0] [o0]).
Proof.
  assert (A1 : all_answers P0 g0 [a0] (world0 [0; 0] [1/4; 0] [o0])).
  { split; [|intros w2 _; exact Logic.I]. intros w1 E. rewrite prepared_first in E. injection E as <-.
    destruct (o0_after 0) as (X1 & X2 & X3 & X4 & _).
    apply (a0_accepted _ 0 o0); cbn [now start_time p_state p_input obstacles]; auto; try reflexivity.
    - split; discriminate.
    - f_equal. unfold Q2R; cbn; field. }
  cut (all_answers (fine g0 0 lim0 [1; 0] [(0, 0)] (1/2) (1/10)) g0 ([a0] ++ [a0]) (world0 [0; 0] [1/4; 0] [o0])).
  { intros H. clear A1. destruct H as [H1 H2]. split; [intros w1 E; apply (H1 w1 E)|]. intros w2 E. destruct (H2 w2 E) as [H3 _].
    split; [intros w3 E3; apply (H3 w3 E3)|intros; exact Logic.I]. }
  apply (extend g0 2); auto.
  - exact g0_steady.
  - reflexivity.
  - apply (fine_starts g0 2); [exact g0_steady|cbn; lia].
  - discriminate.
  - constructor; [exact a0_proper|constructor].
  - apply fine_all; [constructor; [exact a0_proper|constructor]|exact A1].
  - intros w1 l (L1 & L2 & L3 & L4 & L5) NW SW PS PI OB. split; [exact a0_proper|].
    cbn [length] in L1, NW, OB. cbn [map] in OB. change (dim g0) with 2%nat in *. change (ideal_update g0) with false in L5. cbv iota in L5.
    assert (R : (rel g0 (now w1) (start_time w1) == 1)%Q).
    { rewrite (rel_phase g0 _ _ 1 NW SW). reflexivity. }
    assert (R0 : (phase g0 0 == 0)%Q) by reflexivity. assert (Z : Q2R 0 = 0) by (unfold Q2R; cbn; field).
    assert (I : forall q, (q <= 2)%nat -> c_input (nth q l no_column) = [1/4; 0]).
    { intros q Q. specialize (L3 0%nat a0 q eq_refl Q). cbn [Nat.mul Nat.add seq map] in L3. rewrite L3.
      rewrite (course_rel _ _ _ _ _ _ _ R0). rewrite (course_rel _ _ _ _ 1 1%nat _ R0).
      destruct (course0 0 (INR q * Q2R (ts g0))) as (_ & _ & C & D).
      - rewrite Z, h0. apply le_INR in Q. pose proof (pos_INR q). replace (INR 2) with 2 in Q by (cbn; ring). lra.
      - rewrite C, D. reflexivity. }
    assert (S0 : c_state (nth 0 l no_column) = [0; 0]).
    { specialize (L4 0%nat a0 eq_refl). cbn [Nat.mul seq map] in L4. rewrite L4.
      rewrite (course_rel _ _ _ _ _ _ _ R0). rewrite (course_rel _ _ _ _ 0 1%nat _ R0).
      destruct (course0 0 0) as (C & D & _); [rewrite Z; lra|]. rewrite C, D, Z. f_equal. field. }
    pose proof (L5 0%nat ltac:(lia)) as S1. pose proof (L5 1%nat ltac:(lia)) as S2. 
    rewrite S0, !I, h0 in S1 by lia. rewrite S1, !I, h0 in S2 by lia.
    assert (LL : last l no_column = nth 2 l no_column) by (rewrite Timing_Proofs.last_nth, L1; reflexivity).
    destruct (o0_after 1) as (X1 & X2 & X3 & X4 & _).
    apply (a0_accepted _ 1 (obstacle_after g0 1 o0)); auto.
    + split; discriminate.
    + rewrite PS, LL, S2. unfold trapezoid. cbn. f_equal; [unfold Q2R; cbn; field|]. f_equal. field.
    + rewrite PI, LL. apply I. lia.
Qed.
