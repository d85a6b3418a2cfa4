(** Concrete runs with free end time: a disc drives along the x axis to (1, 0)
    at a quarter of a metre per second under an obstacle that moves along
    y = 2; updated after five samples.  The second motion is shorter than an
    update, in the second run shorter than a sample. *)
From Coq Require Import String Reals QArith Qreals ZArith Lra Lia List Arith Bool.
From Coq Require Lqa.
From Verif Require Import Spline_Model Spline_Spec Spline_Proofs3 Splop_Spec Splop_Proofs4 Vehicle_Model Vehicle_Spec Vehicle_Proofs Lift_Model Lift_Spec Lift_Proofs Lift_Proofs2 
  Lift_Examples Lift_Examples2 Obst_Model Spline_Proofs Spline_Proofs2 Quad_Proofs Concat_Proofs8
  Loop_Model Loop_Spec Loop_Proofs Loop_Proofs2 Loop_Proofs3 Loop_Proofs6 Loop_Proofs10 Loop_Proofs11 Loop_Examples Loop_Proofs12 Loop_Examples2 Loop_Examples3
  Free_Model Free_Spec Free_Proofs Free_Proofs2 Free_Proofs3 Free_Proofs4 Free_Proofs5 Free_Proofs6 Free_Proofs7 Free_Proofs8.
From Verif Require Timing_Model Timing_Proofs Timing_Proofs2 Obst_Proofs Obst_Proofs2 Obst_Spec.
Import ListNotations.
Local Open Scope R_scope.
Local Notation length := List.length.

Definition g1 : settings := mkSet (1#2) (5#2) 4 2 2 false false.
Definition fa (s : R) (T : Q) : fanswer := mkF (mkA
  (fun i => match i with O => mkS cbasis [s; s + (1 - s) / 3; s + 2 * (1 - s) / 3; 1] | _ => mkS cbasis [0; 0; 0; 0] end)
  (fun i => mkS cbasis [0; 0; 0; 0])
  (fun _ j => match j with 1%nat | 2%nat => mkS zbasis [1] | _ => mkS zbasis [0] end)) T.

Lemma g1_paced : paced g1 5.
Proof. unfold paced. cbn. repeat split; try reflexivity; lia. Qed.
Lemma h1 : Q2R (ts g1) = 1/2. Proof. unfold Q2R; cbn; field. Qed.
Lemma fa_proper : forall s T, proper g1 (fa s T).
Proof.
  intros s T.
  destruct (cubic_proper g0 (path (body (fa s T))) (slack (body (fa s T))) (plane (body (fa s T)))) as (A & _ & B).
  - intros [|i] _; do 4 eexists; reflexivity.
  - intros [|i] _; do 4 eexists; reflexivity.
  - intros k [|[|[|j]]]; apply z_unit.
  - split; [exact A|exact B].
Qed.

Section One.
Variables (s : R) (T : Q).
Hypothesis TP : 0 < Q2R T.
Hypothesis TS : Q2R T = 4 * (1 - s).
Let a := body (fa s T).
Lemma fa_d1 : forall i, (i < 2)%nat -> derivative (own a i) 1 = mkS obasis (if (i =? 0)%nat then [1 - s; 1 - s; 1 - s] else [0; 0; 0]).
Proof.
  intros [|[|i]] H; try lia; unfold own, a, fa; cbn [Nat.ltb Nat.leb path body]; rewrite cube_derivative; cbn [Nat.eqb]; f_equal; repeat (f_equal; try field).
Qed.
Lemma fa_d2 : forall i, (i < 2)%nat -> derivative (own a i) 2 = mkS lbasis [0; 0].
Proof.
  intros [|[|i]] H; try lia; unfold own, a, fa; cbn [Nat.ltb Nat.leb path body]; rewrite cube_second; f_equal; repeat (f_equal; try field).
Qed.
Lemma fa_limits : solved 0 (own a) (holonomic_inf (holonomic_limits no_bounds) (Q2R T)).
Proof.
  intros c Hc. unfold holonomic_inf in Hc. pose proof TP as TP'. rewrite TS in Hc, TP'.
  pose proof (Rmult_lt_0_compat _ _ TP' TP') as TQ.
  repeat (destruct Hc as [<-|Hc]; [eexists; split; [cbn [le0 cexpr build o_sub o_add o_neg];
    rewrite ?fa_d1, ?fa_d2 by lia; reflexivity|];
  cbn [le0 clo chi entries kept coeffs add_num neg scale sbasis map Nat.eqb];
  intros v Hv; split; [exact Logic.I|]; cbn [In] in Hv; unfold holonomic_limits, no_bounds, vxmin, vymin, vxmax, vymax, axmin, aymin, axmax, aymax, dflt in Hv;
  cbn [b_vmin b_vmax b_amin b_amax b_vxmin b_vymin b_vxmax b_vymax b_axmin b_aymin b_axmax b_aymax map] in Hv; cbn [pow] in Hv;
  decompose [or] Hv; try contradiction; subst v; nra|]). destruct Hc.
Qed.
Lemma fa_starts : starts 0 (own a) (0 / Q2R T) (init_cons 2 [s; 0] [1/4; 0] (Q2R T)).
Proof.
  intros tup Hin. cbn [init_cons seq map app nth In] in Hin.
  replace (0 / Q2R T) with 0 by (field; lra).
  assert (I : 0 <= 0 <= 1) by lra.
  destruct Hin as [<-|[<-|[<-|[<-|[]]]]]; cbn [nth build]; eexists; eexists; (split; [reflexivity|split; [reflexivity|]]).
  - change (derivative (own a 0) 0) with (mkS cbasis [s; s + (1 - s) / 3; s + 2 * (1 - s) / 3; 1]). rewrite evalspline_call by reflexivity. rewrite cseg_call by exact I. field.
  - change (derivative (own a 1) 0) with (mkS cbasis [0; 0; 0; 0]). rewrite evalspline_call by reflexivity. rewrite cseg_call by exact I. field.
  - rewrite fa_d1 by lia. cbn [Nat.eqb]. rewrite evalspline_call by reflexivity. rewrite Obst_Proofs.oseg_call by exact I. rewrite TS. field.
  - rewrite fa_d1 by lia. cbn [Nat.eqb]. rewrite evalspline_call by reflexivity. rewrite Obst_Proofs.oseg_call by exact I. field.
Qed.
Lemma fa_stops : stops 0 (own a) (term_cons true 2 3 [1; 0]).
Proof.
  intros c Hc. cbn [term_cons seq map app nth In] in Hc. assert (I : 0 <= 1 <= 1) by lra.
  destruct Hc as [<-|[<-|[]]]; cbn [fst snd build nth]; eexists; (split; [reflexivity|]).
  - change (derivative (own a 0) 0) with (mkS cbasis [s; s + (1 - s) / 3; s + 2 * (1 - s) / 3; 1]). rewrite cseg_call by exact I. field.
  - change (derivative (own a 1) 0) with (mkS cbasis [0; 0; 0; 0]). rewrite cseg_call by exact I. field.
Qed.
Lemma fa_course : forall t, 0 <= t <= Q2R T ->
  fcourse (fa s T) 0 0 t = s + t / 4 /\ fcourse (fa s T) 0 1 t = 0 /\ fcourse (fa s T) 1 0 t = 1/4 /\ fcourse (fa s T) 1 1 t = 0.
Proof.
  intros t H. unfold fcourse. change (motion (fa s T)) with T.
  assert (I : 0 <= t / Q2R T <= 1).
  { split; apply (Rmult_le_reg_r (Q2R T)); try exact TP; unfold Rdiv; rewrite Rmult_assoc, Rinv_l by lra; lra. }
  change (derivative (path (body (fa s T)) 0) 0) with (mkS cbasis [s; s + (1 - s) / 3; s + 2 * (1 - s) / 3; 1]).
  change (derivative (path (body (fa s T)) 1) 0) with (mkS cbasis [0; 0; 0; 0]).
  rewrite !cseg_call by exact I.
  pose proof (fa_d1 0 ltac:(lia)) as D0. pose proof (fa_d1 1 ltac:(lia)) as D1. change (own a 0) with (path (body (fa s T)) 0) in D0. change (own a 1) with (path (body (fa s T)) 1) in D1.
  rewrite D0, D1. cbn [Nat.eqb]. rewrite !Obst_Proofs.oseg_call by exact I.
  assert (S1 : s = 1 - Q2R T / 4) by lra. rewrite S1. repeat split; field; lra.
Qed.
End One.

Section Avoid.
Variables (s : R) (T : Q) (o : obstacle).
Hypothesis TP : 0 < Q2R T.
Hypothesis OC : o_chk o = [(0, 0)].
Hypothesis OR : o_rad o = 1/2.
Hypothesis OT : o_theta o = 0.
Hypothesis OY : last (lstate (o_ly o)) ost0 = mkO 2 0 0.
Let X := seen (body (fa s T)) 0 o 0 (Q2R T).
Lemma DF_seen_ok : forall i, is_kin (D_seen i) (Spl (X i)).
Proof. intros i. do 8 (destruct i as [|i]; [reflexivity|]). reflexivity. Qed.
Lemma XF_seen_unit : forall i, on_unit (X i).
Proof. intros i. do 8 (destruct i as [|i]; [first [apply z_unit | apply o_unit | apply c_unit]|]). apply z_unit. Qed.
Lemma JF_seen : forall x, 0 <= x <= 1 ->
  jets X x 0%nat 0%nat = s + x * (1 - s) /\ jets X x 1%nat 0%nat = 0 /\ jets X x 2%nat 0%nat = 0 /\ jets X x 3%nat 0%nat = 1 /\
  jets X x 4%nat 0%nat = 1 /\ jets X x 5%nat 0%nat = 0 /\ jets X x 7%nat 0%nat = 2.
Proof.
  intros x I. 
  rewrite (jets_c X 0 _ _ _ _ x eq_refl I), (jets_c X 1 _ _ _ _ x eq_refl I).
  rewrite (jets_z X 2 _ x eq_refl I), (jets_z X 3 _ x eq_refl I), (jets_z X 4 _ x eq_refl I), (jets_z X 5 _ x eq_refl I).
  assert (E7 : X 7%nat = pos_spline 2 0 0 0 (Q2R T)) by (unfold X, seen; rewrite OY; reflexivity).
  unfold pos_spline, oseg in E7. rewrite (jets_o X 7 _ _ _ x E7 I).
  unfold back_x, back_v. repeat split; field.
Qed.
Ltac eval_fseen :=
  cbv zeta; destruct (JF_seen 0 ltac:(lra)) as (A0 & A1 & A2 & A3 & A4 & A5 & A6); destruct (JF_seen 1 ltac:(lra)) as (B0 & B1 & B2 & B3 & B4 & B5 & B6);
  destruct (JF_seen (1/2) ltac:(lra)) as (C0 & C1 & C2 & C3 & C4 & C5 & C6); destruct (JF_seen (1/3) ltac:(lra)) as (E0 & E1 & E2 & E3 & E4 & E5 & E6);
  destruct (JF_seen (2/3) ltac:(lra)) as (F0 & F1 & F2 & F3 & F4 & F5 & F6); cbn [sval];
  rewrite ?A0, ?A1, ?A2, ?A3, ?A4, ?A5, ?A6, ?B0, ?B1, ?B2, ?B3, ?B4, ?B5, ?B6, ?C0, ?C1, ?C2, ?C3, ?C4, ?C5, ?C6,
    ?E0, ?E1, ?E2, ?E3, ?E4, ?E5, ?E6, ?F0, ?F1, ?F2, ?F3, ?F4, ?F5, ?F6; lra.
Lemma avoid1_ok : solved 0 X (avoid_cons [(0, 0)] (1/2) (1/10) o).
Proof.
  assert (F : forall i, on_unit (X i) /\ (0 <= degree (sbasis (X i)))%nat) by (intros; split; [apply XF_seen_unit|lia]). unfold avoid_cons. rewrite OC.
  assert (SD : Rltb 0 (1/10) = true) by (apply Rltb_true; lra). rewrite SD.
  unfold veh_side, obs_side, eps_sx, eps_cons. rewrite SD, OR, OT, cos_0, sin_0. cbn [map app fst snd].
  unfold norm_sx, veh_sx, obs_sx. cbv zeta.
  apply solved_cons; [apply (solved_kin X D_seen _ IZ DF_seen_ok); [cbn [fits]; fitall F|reflexivity|eval_fseen..]|].
  apply solved_cons; [apply (solved_kin X D_seen _ IC DF_seen_ok); [cbn [fits]; fitall F|reflexivity|eval_fseen..]|].
  apply solved_cons; [apply (solved_kin X D_seen _ IO DF_seen_ok); [cbn [fits]; fitall F|reflexivity|eval_fseen..]|].
  apply solved_cons; [apply (solved_kin X D_seen _ IZ DF_seen_ok); [cbn [fits]; fitall F|reflexivity|eval_fseen..]|].
  apply solved_cons; [apply (solved_kin X D_seen _ IZ DF_seen_ok); [cbn [fits]; fitall F|reflexivity|eval_fseen..]|].
  apply solved_nil.
Qed.
End Avoid.

Definition PF := f_accepted g1 true 0 (holonomic_constraints "norm_inf" no_bounds) [1; 0] [(0, 0)] (1/2) (1/10).
Lemma fa_accepted : forall s T w o, 0 < Q2R T -> Q2R T = 4 * (1 - s) -> 0 <= s ->
  p_state w = [s; 0] -> p_input w = [1/4; 0] -> obstacles w = [o] ->
  o_chk o = [(0, 0)] -> o_rad o = 1/2 -> o_theta o = 0 -> last (lstate (o_ly o)) ost0 = mkO 2 0 0 -> PF w (fa s T).
Proof.
  intros s T w o TP TS S0 PS PI OB OC OR OT OY. unfold PF, f_accepted. cbv zeta. rewrite PS, PI, OB. change (dim g1) with 2%nat.
  change (motion (fa s T)) with T.
  split; [eexists; split; [reflexivity|apply fa_limits; assumption]|]. split; [lra|]. split; [apply fa_starts; assumption|].
  split; [apply fa_stops|]. intros k o' E. destruct k as [|[|k]]; try discriminate. injection E as <-. apply avoid1_ok; auto.
Qed.
Lemma o1_after : forall n, let o := obstacle_after g1 n o0 in o_chk o = [(0, 0)] /\ o_rad o = 1/2 /\ o_theta o = 0 /\
  last (lstate (o_ly o)) ost0 = mkO 2 0 0 /\ o_evy o = [].
Proof.
  intros n. induction n as [|n IH]; cbv zeta in *; [repeat split; reflexivity|].
  destruct IH as (A & B & C & D & E). cbn [obstacle_after]. unfold simulate_obstacle. cbn [o_chk o_rad o_theta o_ly o_evy].
  repeat split; try assumption. rewrite E. change (Z.to_nat (Timing_Model.n_samp (upd g1) (ts g1))) with 5%nat.
  unfold simulate. cbn [lstate]. rewrite D. cbn [seq map].
  rewrite Obst_Proofs2.last_nth, app_length. cbn [length]. rewrite app_nth2 by lia.
  match goal with |- nth ?k _ _ = _ => replace k with 4%nat by lia end. cbn [nth].
  unfold sample_at. cbn [incr fold_right map flow ox ov oa filter].
  match goal with |- context [Reqb ?a 0] => destruct (Reqb a 0) end; cbn; f_equal; field.
Qed.

(** one more answer *)
Lemma f_extend : forall g m (P : world -> fanswer -> Prop) s0 i0 obs fs f, paced g m -> consistent g ->
  length s0 = dim g -> length i0 = dim g -> (forall w f, long g f -> P w f -> f_starts g w f) -> fs <> [] ->
  Forall (long g) fs -> Forall (proper g) fs -> all_found P g fs (world0 s0 i0 obs) ->
  (forall w1 l, flogs g m fs (length fs * m) l -> 
     p_state w1 = c_state (last l no_column) -> p_input w1 = c_input (last l no_column) ->
     obstacles w1 = map (obstacle_after g (length fs)) obs -> P w1 f) ->
  all_found P g (fs ++ [f]) (world0 s0 i0 obs).
Proof.
  intros g m P s0 i0 obs fs f ST CO LS LI PS NE FL FA AA H. apply found_snoc. split; [exact AA|].
  intros w' E w1 PR.
  destruct (free_log g m P s0 i0 obs fs ST CO LS LI PS FL FA AA) as (w & w2 & E' & PR' & RD & O & _).
  rewrite E in E'. injection E' as <-. rewrite PR in PR'. injection PR' as <-.
  destruct RD as (_ & _ & _ & [(Z & _)|(l & pl & L1 & L2 & L3 & L4 & L5 & _)]); [contradiction|].
  apply (H w1 l L3); auto.
Qed.

(** what is logged after a long motion *)
Lemma logged1 : forall s T l, 0 < Q2R T -> Q2R T = 4 * (1 - s) -> (5 # 2 <= T)%Q -> flogs g1 5 [fa s T] (1 * 5) l ->
  c_state (last l no_column) = [s + 5/8; 0] /\ c_input (last l no_column) = [1/4; 0].
Proof.
  intros s T l TP TS TL (L1 & _ & L2 & L3 & L4 & L5). change (dim g1) with 2%nat in *. change (ideal_update g1) with false in L5. cbv iota in L5.
  assert (CN : count g1 5 (fa s T) = 5%nat) by (apply count_long; exact TL).
  assert (TR : 5/2 <= Q2R T) by (apply Qle_Rle in TL; replace (Q2R (5#2)) with (5/2) in TL by (unfold Q2R; cbn; field); lra).
  assert (I : forall q, (q <= 5)%nat -> c_input (nth q l no_column) = [1/4; 0]).
  { intros q Q. specialize (L3 0%nat (fa s T) q eq_refl ltac:(rewrite CN; exact Q)). cbn [Nat.mul Nat.add seq map] in L3. rewrite L3.
    destruct (fa_course s T TP TS (INR q * Q2R (ts g1))) as (_ & _ & C & D).
    - rewrite h1. apply le_INR in Q. pose proof (pos_INR q). replace (INR 5) with 5 in Q by (cbn; ring). lra.
    - rewrite C, D. reflexivity. }
  assert (SA : forall j, (j <= 5)%nat -> c_state (nth j l no_column) = [s + INR j / 8; 0]).
  { induction j as [|j IH]; intros J.
    - specialize (L4 0%nat (fa s T) eq_refl). cbn [Nat.mul seq map] in L4. rewrite L4.
      destruct (fa_course s T TP TS 0 ltac:(lra)) as (C & D & _). rewrite C, D. cbn [INR]. f_equal. field.
    - rewrite (L5 j ltac:(lia)), IH, !I, h1 by lia. unfold trapezoid. rewrite S_INR. cbn. f_equal; [field|]. f_equal. field. }
  rewrite Timing_Proofs.last_nth, L1. replace (1 * 5 + 1 - 1)%nat with 5%nat by lia.
  rewrite SA, I by lia. split; [|reflexivity]. replace (INR 5) with 5 by (cbn; ring). reflexivity.
Qed.

Lemma run1 : forall s T s' T', 0 < Q2R T -> Q2R T = 4 * (1 - s) -> 0 <= s -> (5 # 2 <= T)%Q ->
  0 < Q2R T' -> Q2R T' = 4 * (1 - s') -> s' = s + 5/8 ->
  all_found PF g1 [fa s T; fa s' T'] (world0 [s; 0] [1/4; 0] [o0]).
Proof.
  intros s T s' T' TP TS S0 TL TP' TS' SS.
  assert (A1 : all_found PF g1 [fa s T] (world0 [s; 0] [1/4; 0] [o0])).
  { split; [|intros w2 _; exact Logic.I]. intros w1 E. rewrite prepared_first in E. injection E as <-.
    destruct (o1_after 0) as (X1 & X2 & X3 & X4 & _).
    apply (fa_accepted s T _ o0); cbn [now start_time p_state p_input obstacles]; auto; reflexivity. }
  assert (FP : Forall (proper g1) [fa s T]) by (constructor; [apply fa_proper|constructor]).
  cut (all_found (fun w f => PF w f /\ proper g1 f) g1 ([fa s T] ++ [fa s' T']) (world0 [s; 0] [1/4; 0] [o0])).
  { intros H. clear A1. destruct H as [H1 H2]. split; [intros w1 E; apply (H1 w1 E)|]. intros w2 E. destruct (H2 w2 E) as [H3 _].
    split; [intros w3 E3; apply (H3 w3 E3)|intros; exact Logic.I]. }
  apply (f_extend g1 5); auto.
  - exact g1_paced.
  - reflexivity.
  - intros w f LO [X Y]. refine (accepted_f_starts g1 5 _ _ _ _ _ _ _ w f g1_paced _ _ Y X); [cbn; lia|].
    apply (timely_pos g1 5 f g1_paced), (long_timely g1 5 f g1_paced LO).
  - discriminate.
  - apply found_proper; assumption.
  - intros w1 l FL PS PI OB. split; [|apply fa_proper]. destruct (logged1 s T l TP TS TL FL) as [E1 E2].
    destruct (o1_after 1) as (X1 & X2 & X3 & X4 & _).
    apply (fa_accepted s' T' w1 (obstacle_after g1 1 o0)); auto; [lra|rewrite PS, E1, SS; reflexivity|rewrite PI; exact E2].
Qed.

(** the two runs *)
Definition long_run := [fa 0 4; fa (5/8) (3#2)].
Definition short_run := [fa (5/16) (11#4); fa (15/16) (1#4)].
Lemma found_long : all_found PF g1 ([fa 0 4] ++ [fa (5/8) (3#2)]) (world0 [0; 0] [1/4; 0] [o0]).
Proof. apply run1; unfold Q2R; cbn; try lra. apply Qle_bool_iff; reflexivity. Qed.
Lemma found_short : all_found PF g1 (([] ++ [fa (5/16) (11#4)]) ++ [fa (15/16) (1#4)]) (world0 [5/16; 0] [1/4; 0] [o0]).
Proof. apply run1; unfold Q2R; cbn; try lra. apply Qle_bool_iff; reflexivity. Qed.
Lemma legs1 : legs g1 [fa 0 4] (fa (5/8) (3#2)).
Proof.
  split; [constructor; [apply Qle_bool_iff; reflexivity|constructor]|]. split; [constructor; [apply fa_proper|constructor]|].
  split; [|apply fa_proper]. split; [|intros _]; apply Qle_bool_iff; vm_compute; reflexivity.
Qed.
Lemma legs2 : legs g1 [] (fa (5/16) (11#4)).
Proof.
  split; [constructor|]. split; [constructor|].
  split; [|apply fa_proper]. split; [|intros _]; apply Qle_bool_iff; vm_compute; reflexivity.
Qed.
Lemma moves1 : exists p v, f_moves g1 5 [fa 0 4] (fa (5/8) (3#2)) [0; 0] [1/4; 0] [o0] p v.
Proof. apply (free_moves g1 5 true 0 (holonomic_constraints "norm_inf" no_bounds) [1; 0] [(0, 0)] (1/2) (1/10)); auto; [exact g1_paced|reflexivity|cbn; lia|exact legs1|exact found_long]. Qed.
Lemma moves2 : exists p v, f_moves g1 5 [] (fa (5/16) (11#4)) [5/16; 0] [1/4; 0] [o0] p v.
Proof.
  apply (free_moves g1 5 true 0 (holonomic_constraints "norm_inf" no_bounds) [1; 0] [(0, 0)] (1/2) (1/10)); auto; [exact g1_paced|reflexivity|cbn; lia|exact legs2|].
  exact (found_prefix PF g1 _ _ _ found_short).
Qed.
Lemma count1 : count g1 5 (fa (5/8) (3#2)) = 3%nat. Proof. vm_compute. reflexivity. Qed.
Lemma count2 : count g1 5 (fa (5/16) (11#4)) = 5%nat. Proof. vm_compute. reflexivity. Qed.
Lemma upd1 : Q2R (upd g1) = 5/2. Proof. unfold Q2R; cbn; field. Qed.
Lemma end1 : end_time g1 5 [fa 0 4] (fa (5/8) (3#2)) = 4.
Proof. unfold end_time, at_update. rewrite count1, upd1, h1. cbn; field. Qed.
Lemma end2 : end_time g1 5 [] (fa (5/16) (11#4)) = 5/2.
Proof. unfold end_time, at_update. rewrite count2, upd1, h1. cbn; field. Qed.
Lemma sequel1 : sequel g1 long_run.
Proof.
  split; [constructor; [apply fa_proper|constructor; [apply fa_proper|constructor]]|]. split; [|apply Qle_bool_iff; reflexivity].
  constructor; [left|constructor; [left|constructor]]; (split; [|intros _]; apply Qle_bool_iff; vm_compute; reflexivity).
Qed.
Lemma sequel2 : sequel g1 short_run.
Proof.
  split; [constructor; [apply fa_proper|constructor; [apply fa_proper|constructor]]|]. split; [|apply Qle_bool_iff; reflexivity].
  constructor; [left; (split; [|intros _]; apply Qle_bool_iff; vm_compute; reflexivity)|constructor; [right|constructor]]. split; reflexivity.
Qed.

(** a plan that stops: 1 - (1 - 2 x)^3 in the first half, 1 in the second *)
Definition hbasis : bbasis := mkB [0; 0; 0; 0; 1/2; 1; 1; 1; 1] 3.
Definition halt : fanswer := mkF (mkA (fun _ => mkS hbasis [0; 1; 1; 1; 1]) (fun _ => mkS zbasis [0]) (fun _ _ => mkS zbasis [0])) 4.
Definition g2 : settings := mkSet (1#2) (5#2) 4 2 1 false false.
Lemma h_unit : forall a b c d e, on_unit (mkS hbasis [a; b; c; d; e]).
Proof.
  intros. split; [|reflexivity]. split; [split; [knots_ok|simpl; lia]|]. unfold clamped; simpl. repeat split; lra.
Qed.
Lemma halt_proper : proper g2 halt.
Proof.
  split; [|intros; apply z_unit]. intros i _. split; [apply h_unit|]. split; [reflexivity|].
  intros x Hx i' Hi [H1 H2]. simpl in Hi. cbn [halt path body sbasis hbasis knots] in H1, H2.
  do 9 (destruct i' as [|i']; [simpl in H1, H2; lra|]). simpl in Hi. lia.
Qed.
Lemma halt_end : forall o, (1 <= o <= 3)%nat -> call (derivative (mkS hbasis [0; 1; 1; 1; 1]) o) 1 = 0.
Proof.
  intros o Ho.
  assert (E : forall s, ends_at s 1 -> call s 1 = nth (length (coeffs s) - 1) (coeffs s) 0).
  { intros s (WF & SZ & DR & LA & LT). rewrite <- call_right_end by (try assumption; rewrite ?DR; congruence). rewrite DR. reflexivity. }
  pose proof (unit_ends _ (h_unit 0 1 1 1 1)) as E0.
  set (h := mkS hbasis [0; 1; 1; 1; 1]) in *.
  assert (E1 : ends_at (derivative h 1) 1) by (apply ends_deriv; [cbn; lia|exact E0]).
  assert (E2 : ends_at (derivative h 2) 1) by (rewrite <- derivative_inner; apply ends_deriv; [cbn; lia|exact E1]).
  assert (E3 : ends_at (derivative h 3) 1) by (rewrite derivative_iter; apply ends_deriv; [cbn; lia|exact E2]).
  unfold h in *. clear h.
  destruct o as [|[|[|[|o]]]]; try lia; rewrite E by assumption; unfold derivative; simpl; unfold deriv_step; simpl; field.
Qed.
Lemma halt_stops : stops 0 (own (body halt)) (term_cons false 1 3 [1]).
Proof.
  intros c Hc. cbn [term_cons seq map app nth flat_map In] in Hc.
  destruct Hc as [<-|[<-|[<-|[<-|[]]]]]; cbn [fst snd build nth]; eexists; (split; [reflexivity|]);
    change (own (body halt) 0) with (mkS hbasis [0; 1; 1; 1; 1]).
  - destruct (unit_ends _ (h_unit 0 1 1 1 1)) as (WF & SZ & DR & LA & LT). rewrite derivative_0.
    rewrite <- DR, call_right_end by (try assumption; rewrite ?DR; congruence). cbn. ring.
  - rewrite halt_end by lia. ring.
  - rewrite halt_end by lia. ring.
  - rewrite halt_end by lia. ring.
Qed.

(** a motion time just below three samples: rounded to three for the signals
    that are copied, truncated to two for the state *)
Theorem misaligned : exists t h : Q, (0 < h)%Q /\ (h <= t)%Q /\ copied_columns t h = 3%Z /\ state_columns t h = 2%Z.
Proof. exists (29999999 # 100000000)%Q, (1#10)%Q. repeat split; vm_compute; try reflexivity; discriminate. Qed.

(** the first problem accepts a motion of a quarter of a second; the update
    raises *)
Theorem first_raises : exists g w f, f_accepted g true 0 (holonomic_constraints "norm_inf" no_bounds) [1; 0] [(0, 0)] (1/2) (1/10) w f /\
  proper g f /\ (0 < motion f)%Q /\ w = world0 [15/16; 0] [1/4; 0] [o0] /\ f_update g f w = None.
Proof.
  exists g1, (world0 [15/16; 0] [1/4; 0] [o0]), (fa (15/16) (1#4)). destruct (o1_after 0) as (X1 & X2 & X3 & X4 & _).
  split; [apply (fa_accepted (15/16) (1#4) _ o0); auto; unfold Q2R; cbn; lra|].
  split; [apply fa_proper|]. split; [reflexivity|]. split; [reflexivity|]. apply free_first_skipped. reflexivity.
Qed.
