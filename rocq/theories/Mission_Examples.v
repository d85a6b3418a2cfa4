(** A concrete mission: the run of Loop_Examples2, a pause of one second, and a
    run in which the vehicle is already near its goal. *)
From Coq Require Import String Reals QArith Qreals ZArith Lra Lia List Arith Bool.
From Coq Require Lqa.
From Verif Require Import Spline_Model Spline_Spec Spline_Proofs3 Splop_Spec Splop_Proofs4 Vehicle_Model Vehicle_Spec Vehicle_Proofs Lift_Model Lift_Spec Lift_Proofs Lift_Proofs2
  Lift_Examples Lift_Examples2 Obst_Model Spline_Proofs Concat_Proofs8
  Loop_Model Loop_Spec Loop_Proofs Loop_Proofs2 Loop_Proofs3 Loop_Proofs4 Loop_Proofs6 Loop_Proofs7 Loop_Proofs9 Loop_Proofs10 Loop_Proofs11 Loop_Examples Loop_Proofs12 Loop_Examples2 Loop_Examples3
  Mission_Model Mission_Spec Mission_Proofs Mission_Proofs2 Mission_Proofs3 Mission_Proofs4 Mission_Proofs5 Mission_Proofs6.
From Verif Require Timing_Model Timing_Proofs Timing_Proofs2 Obst_Proofs Obst_Spec.
Import ListNotations.
Local Open Scope R_scope.
Local Notation length := List.length.

(** standing still at (1/2, 0) *)
Definition b0 : answer := mkA
  (fun i => match i with O => mkS cbasis [1/2; 1/2; 1/2; 1/2] | _ => mkS cbasis [0; 0; 0; 0] end)
  (fun i => match i with O => mkS cbasis [1/2; 1/2; 1/2; 1/2] | _ => mkS cbasis [0; 0; 0; 0] end)
  (fun _ j => match j with 1%nat | 2%nat => mkS zbasis [1] | _ => mkS zbasis [0] end).
Lemma b0_proper : proper_answer g0 b0.
Proof.
  apply cubic_proper.
  - intros [|i] _; do 4 eexists; reflexivity.
  - intros [|i] _; do 4 eexists; reflexivity.
  - intros k [|[|[|j]]]; apply z_unit.
Qed.
Lemma b_d1 : forall i, (i < 2)%nat -> derivative (own b0 i) 1 = mkS obasis [0; 0; 0].
Proof. intros [|[|i]] H; try lia; unfold own, b0; cbn [Nat.ltb Nat.leb path]; rewrite cube_derivative; f_equal; repeat (f_equal; try field). Qed.
Lemma b_d2 : forall i, (i < 2)%nat -> derivative (own b0 i) 2 = mkS lbasis [0; 0].
Proof. intros [|[|i]] H; try lia; unfold own, b0; cbn [Nat.ltb Nat.leb path]; rewrite cube_second; f_equal; repeat (f_equal; try field). Qed.
Lemma limb_ok : solved 0 (own b0) lim0.
Proof.
  intros c Hc. unfold lim0, holonomic_inf in Hc. replace (Q2R 4) with 4 in Hc by (symmetry; apply T0).
  repeat (destruct Hc as [<-|Hc]; [eexists; split; [cbn [le0 cexpr build o_sub o_add o_neg];
    rewrite ?b_d1, ?b_d2 by lia; reflexivity|];
  cbn [le0 clo chi entries kept coeffs add_num neg scale sbasis map Nat.eqb];
  intros v Hv; split; [exact Logic.I|]; cbn [In] in Hv; unfold holonomic_limits, no_bounds, vxmin, vymin, vxmax, vymax, axmin, aymin, axmax, aymax, dflt in Hv;
  cbn [b_vmin b_vmax b_amin b_amax b_vxmin b_vymin b_vxmax b_vymax b_axmin b_aymin b_axmax b_aymax map] in Hv; cbn [pow] in Hv;
  repeat (destruct Hv as [Hv|Hv]); try contradiction; rewrite <- Hv; lra|]). destruct Hc.
Qed.
Lemma Db_own_ok : forall i, is_kin (D_own i) (Spl (own b0 i)).
Proof. intros i. unfold own. destruct (i <? 10)%nat; unfold b0; cbn [path slack]; [destruct i; reflexivity|]. destruct (i - 10)%nat; reflexivity. Qed.
Lemma ownb_unit : forall i, on_unit (own b0 i).
Proof. intros i. unfold own. destruct (i <? 10)%nat; unfold b0; cbn [path slack]; [destruct i; apply c_unit|]. destruct (i - 10)%nat; apply c_unit. Qed.
Lemma Jb_own : forall x, 0 <= x <= 1 -> jets (own b0) x 0%nat 0%nat = 1/2 /\ jets (own b0) x 1%nat 0%nat = 0 /\
  jets (own b0) x 10%nat 0%nat = 1/2 /\ jets (own b0) x 11%nat 0%nat = 0.
Proof.
  intros x I. rewrite (jets_c (own b0) 0 _ _ _ _ x eq_refl I), (jets_c (own b0) 1 _ _ _ _ x eq_refl I),
    (jets_c (own b0) 10 _ _ _ _ x eq_refl I), (jets_c (own b0) 11 _ _ _ _ x eq_refl I). repeat split; field.
Qed.
Ltac eval_b :=
  cbv zeta; destruct (Jb_own 0 ltac:(lra)) as (A0 & A1 & A2 & A3); destruct (Jb_own 1 ltac:(lra)) as (B0 & B1 & B2 & B3);
  destruct (Jb_own (1/2) ltac:(lra)) as (C0 & C1 & C2 & C3); destruct (Jb_own (1/3) ltac:(lra)) as (E0 & E1 & E2 & E3);
  destruct (Jb_own (2/3) ltac:(lra)) as (F0 & F1 & F2 & F3); cbn [sval Nat.add];
  rewrite ?A0, ?A1, ?A2, ?A3, ?B0, ?B1, ?B2, ?B3, ?C0, ?C1, ?C2, ?C3, ?E0, ?E1, ?E2, ?E3, ?F0, ?F1, ?F2, ?F3; lra.
Lemma goalb_ok : forall i, (i < 2)%nat -> solved 0 (own b0) (goal_cons i (nth i [0; 0] 0)).
Proof.
  intros i Hi. assert (F : forall i, on_unit (own b0 i) /\ (0 <= degree (sbasis (own b0 i)))%nat) by (intros; split; [apply ownb_unit|lia]).
  destruct i as [|[|i]]; try lia; unfold goal_cons; cbn [nth];
    (apply solved_cons; [|apply solved_cons; [|apply solved_nil]]);
    (apply (solved_kin (own b0) D_own _ IC Db_own_ok); [cbn [fits]; fitall F|reflexivity|eval_b..]).
Qed.
Lemma startb_ok : forall t, 0 <= t <= 4 -> starts 0 (own b0) (t / 4) (init_cons 2 [1/2; 0] [0; 0] 4).
Proof.
  intros t Ht tup Hin. cbn [init_cons seq map app nth In] in Hin. pose proof (ownb_unit 0) as U0. pose proof (ownb_unit 1) as U1.
  assert (I : 0 <= t / 4 <= 1) by lra.
  destruct Hin as [<-|[<-|[<-|[<-|[]]]]]; cbn [nth build]; eexists; eexists; (split; [reflexivity|split; [reflexivity|]]).
  - change (derivative (own b0 0) 0) with (mkS cbasis [1/2; 1/2; 1/2; 1/2]). rewrite evalspline_call by reflexivity. rewrite cseg_call by exact I. field.
  - change (derivative (own b0 1) 0) with (mkS cbasis [0; 0; 0; 0]). rewrite evalspline_call by reflexivity. rewrite cseg_call by exact I. field.
  - rewrite b_d1 by lia. rewrite evalspline_call by reflexivity. rewrite Obst_Proofs.oseg_call by exact I. field.
  - rewrite b_d1 by lia. rewrite evalspline_call by reflexivity. rewrite Obst_Proofs.oseg_call by exact I. field.
Qed.
Section Avoid.
Variables (o : obstacle) (t : R).
Hypothesis OC : o_chk o = [(0, 0)].
Hypothesis OR : o_rad o = 1/2.
Hypothesis OT : o_theta o = 0.
Hypothesis OY : last (lstate (o_ly o)) ost0 = mkO 2 0 0.
Let X := seen b0 0 o t 4.
Lemma Db_seen_ok : forall i, is_kin (D_seen i) (Spl (X i)).
Proof. intros i. do 8 (destruct i as [|i]; [reflexivity|]). reflexivity. Qed.
Lemma Xb_seen_unit : forall i, on_unit (X i).
Proof. intros i. do 8 (destruct i as [|i]; [first [apply z_unit | apply o_unit | apply c_unit]|]). apply z_unit. Qed.
Lemma Jb_seen : forall x, 0 <= x <= 1 ->
  jets X x 0%nat 0%nat = 1/2 /\ jets X x 1%nat 0%nat = 0 /\ jets X x 2%nat 0%nat = 0 /\ jets X x 3%nat 0%nat = 1 /\
  jets X x 4%nat 0%nat = 1 /\ jets X x 5%nat 0%nat = 0 /\ jets X x 7%nat 0%nat = 2.
Proof.
  intros x I.
  rewrite (jets_c X 0 _ _ _ _ x eq_refl I), (jets_c X 1 _ _ _ _ x eq_refl I).
  rewrite (jets_z X 2 _ x eq_refl I), (jets_z X 3 _ x eq_refl I), (jets_z X 4 _ x eq_refl I), (jets_z X 5 _ x eq_refl I).
  assert (E7 : X 7%nat = pos_spline 2 0 0 t 4) by (unfold X, seen; rewrite OY; reflexivity).
  unfold pos_spline, oseg in E7. rewrite (jets_o X 7 _ _ _ x E7 I).
  unfold back_x, back_v. repeat split; field.
Qed.
Ltac eval_seen :=
  cbv zeta; destruct (Jb_seen 0 ltac:(lra)) as (A0 & A1 & A2 & A3 & A4 & A5 & A6); destruct (Jb_seen 1 ltac:(lra)) as (B0 & B1 & B2 & B3 & B4 & B5 & B6);
  destruct (Jb_seen (1/2) ltac:(lra)) as (C0 & C1 & C2 & C3 & C4 & C5 & C6); destruct (Jb_seen (1/3) ltac:(lra)) as (E0 & E1 & E2 & E3 & E4 & E5 & E6);
  destruct (Jb_seen (2/3) ltac:(lra)) as (F0 & F1 & F2 & F3 & F4 & F5 & F6); cbn [sval];
  rewrite ?A0, ?A1, ?A2, ?A3, ?A4, ?A5, ?A6, ?B0, ?B1, ?B2, ?B3, ?B4, ?B5, ?B6, ?C0, ?C1, ?C2, ?C3, ?C4, ?C5, ?C6,
    ?E0, ?E1, ?E2, ?E3, ?E4, ?E5, ?E6, ?F0, ?F1, ?F2, ?F3, ?F4, ?F5, ?F6; lra.
Lemma avoidb_ok : solved 0 X (avoid_cons [(0, 0)] (1/2) (1/10) o).
Proof.
  assert (F : forall i, on_unit (X i) /\ (0 <= degree (sbasis (X i)))%nat) by (intros; split; [apply Xb_seen_unit|lia]). unfold avoid_cons. rewrite OC.
  assert (SD : Rltb 0 (1/10) = true) by (apply Rltb_true; lra). rewrite SD.
  unfold veh_side, obs_side, eps_sx, eps_cons. rewrite SD, OR, OT, cos_0, sin_0. cbn [map app fst snd].
  unfold norm_sx, veh_sx, obs_sx. cbv zeta.
  apply solved_cons; [apply (solved_kin X D_seen _ IZ Db_seen_ok); [cbn [fits]; fitall F|reflexivity|eval_seen..]|].
  apply solved_cons; [apply (solved_kin X D_seen _ IC Db_seen_ok); [cbn [fits]; fitall F|reflexivity|eval_seen..]|].
  apply solved_cons; [apply (solved_kin X D_seen _ IO Db_seen_ok); [cbn [fits]; fitall F|reflexivity|eval_seen..]|].
  apply solved_cons; [apply (solved_kin X D_seen _ IZ Db_seen_ok); [cbn [fits]; fitall F|reflexivity|eval_seen..]|].
  apply solved_cons; [apply (solved_kin X D_seen _ IZ Db_seen_ok); [cbn [fits]; fitall F|reflexivity|eval_seen..]|].
  apply solved_nil.
Qed.
End Avoid.

Lemma b0_accepted : forall w o, (now w == start_time w)%Q ->
  p_state w = [1/2; 0] -> p_input w = [0; 0] -> obstacles w = [o] ->
  o_chk o = [(0, 0)] -> o_rad o = 1/2 -> o_theta o = 0 -> last (lstate (o_ly o)) ost0 = mkO 2 0 0 ->
  accepted g0 0 lim0 [0; 0] [(0, 0)] (1/2) (1/10) w b0.
Proof.
  intros w o NS PS PI OB OC OR OT OY.
  assert (RT : (rel g0 (now w) (start_time w) == 0)%Q) by (rewrite (phase_rel g0 0); [reflexivity|rewrite NS; ring]).
  unfold accepted. rewrite T0, (Qeq_eqR _ _ RT), PS, PI, OB. change (dim g0) with 2%nat.
  split; [exact limb_ok|]. split; [|split; [exact goalb_ok|]].
  - apply startb_ok. unfold Q2R; cbn; lra.
  - intros k o' E. destruct k as [|[|k]]; try discriminate. injection E as <-. apply avoidb_ok; assumption.
Qed.
