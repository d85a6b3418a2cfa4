(** Examples and counterexamples for initial guesses and free ends. *)
From Coq Require Import Reals List Bool Arith ZArith Lia Lra.
From Verif Require Import Spline_Model Spline_Spec Spline_Proofs Spline_Proofs3 Splop_Model Splop_Spec Splop_Proofs2 Splop_Proofs3 Splop_Proofs4
  Obst_Model Vehicle_Model Vehicle_Spec Lift_Model Lift_Spec Lift_Proofs Lift_Proofs2 Lift_Proofs3 Lift_Examples Lift_Examples2 Concat_Proofs8
  Angle_Model Angle_Proofs Warm_Model Warm_Spec Warm_Proofs Warm_Proofs2.
From Verif Require Loop_Examples Obst_Proofs Mill_Examples Gmove_Model Loop_Model.
Import ListNotations.
Local Open Scope R_scope.
Local Notation length := List.length.

(** ** a path in a ring *)
Definition X_ring (i : nat) : bspline := match i with O => mkS lbasis [2; 5/2] | _ => mkS lbasis [0; 1] end.
Lemma ring_unit : forall i, on_unit (X_ring i).
Proof. intros [|i]; (split; [apply lbasis_clamped|reflexivity]). Qed.
Lemma ring_con : forall e o, fits X_ring e -> build 0 X_ring e = Some (Spl o) -> sbasis o = obasis ->
  (forall x, 0 <= x <= 1 -> sval (jets X_ring x) e <= 0) ->
  2 * sval (jets X_ring (1/2)) e - (sval (jets X_ring 0) e + sval (jets X_ring 1) e) / 2 <= 0 ->
  admitted_by None 0 (entries None (Spl o)).
Proof.
  intros e o F B E H M. destruct (build_good _ _ _ _ F B) as [G _].
  assert (V : forall x, 0 <= x <= 1 -> call o x = sval (jets X_ring x) e).
  { intros x I. pose proof (build_close 0 X_ring e (Spl o) x (Rle_refl 0) F I B) as C. rewrite drift_0 in C. apply close_0, C. }
  intros v Hv. split; [exact Logic.I|]. cbn [entries kept] in Hv.
  rewrite (parabola_coeffs o E (proj2 G)), !V in Hv by lra. destruct Hv as [<-|[<-|[<-|[]]]]; first [exact M | apply H; lra].
Qed.
Lemma J_ring : forall x, 0 <= x <= 1 -> jets X_ring x 0%nat 0%nat = 2 + x / 2 /\ jets X_ring x 1%nat 0%nat = x.
Proof.
  intros x I. unfold jets. change (derivative (X_ring 0) 0) with (mkS lbasis [2; 5/2]). change (derivative (X_ring 1) 0) with (mkS lbasis [0; 1]).
  rewrite !line_call by exact I. split; field.
Qed.
Lemma ring_solved_ex : solved 0 X_ring (ring_cons 0 0 2 3).
Proof.
  destruct (sq_build (add_num (X_ring 0) (- 0)) obasis) as (u & U & BU); [apply mul_line_basis|apply obasis_regular|].
  destruct (sq_build (add_num (X_ring 1) (- 0)) obasis) as (w & W & BW); [apply mul_line_basis|apply obasis_regular|].
  destruct (add_ok 0 u w) as [s A]; [rewrite BU, BW, b_aoo; apply obasis_regular|].
  assert (Bs : sbasis s = obasis) by (rewrite (add_basis _ _ _ _ A), BU, BW; apply b_aoo).
  assert (C : build 0 X_ring (circ_sx 0 0) = Some (Spl s)).
  { unfold circ_sx. cbn [build]. unfold o_sub. cbn [o_neg o_add].
    change (derivative (X_ring 0) 0) with (X_ring 0). change (derivative (X_ring 1) 0) with (X_ring 1). rewrite U, W. cbn [o_add]. rewrite A. reflexivity. }
  assert (F : fits X_ring (circ_sx 0 0)) by (cbn [circ_sx fits]; repeat split; try apply (ring_unit 0); try apply (ring_unit 1); cbn; lia).
  intros c [<-|[<-|[]]]; cbn [le0 cexpr clo chi].
  - exists (Spl (add_num (neg s) (2 ^ 2))). assert (B : build 0 X_ring (- circ_sx 0 0 + SN (2 ^ 2))%sx = Some (Spl (add_num (neg s) (2 ^ 2)))).
    { cbn [build]. fold (build 0 X_ring (circ_sx 0 0)). rewrite C. reflexivity. }
    split; [exact B|]. apply (ring_con (- circ_sx 0 0 + SN (2 ^ 2))%sx); [split; [exact F|exact Logic.I]|exact B|exact Bs| |].
    + intros x I. unfold circ_sx. cbn [sval]. destruct (J_ring x I) as (-> & ->). nra.
    + unfold circ_sx. cbn [sval]. destruct (J_ring 0 ltac:(lra)) as (-> & ->). destruct (J_ring 1 ltac:(lra)) as (-> & ->). destruct (J_ring (1/2) ltac:(lra)) as (-> & ->). lra.
  - exists (Spl (add_num s (- (3 ^ 2)))). assert (B : build 0 X_ring (circ_sx 0 0 - SN (3 ^ 2))%sx = Some (Spl (add_num s (- (3 ^ 2))))).
    { cbn [build]. fold (build 0 X_ring (circ_sx 0 0)). rewrite C. reflexivity. }
    split; [exact B|]. apply (ring_con (circ_sx 0 0 - SN (3 ^ 2))%sx); [split; [exact F|exact Logic.I]|exact B|exact Bs| |].
    + intros x I. unfold circ_sx. cbn [sval]. destruct (J_ring x I) as (-> & ->). nra.
    + unfold circ_sx. cbn [sval]. destruct (J_ring 0 ltac:(lra)) as (-> & ->). destruct (J_ring 1 ltac:(lra)) as (-> & ->). destruct (J_ring (1/2) ltac:(lra)) as (-> & ->). lra.
Qed.
(** a movement from (2, 0) to (0, 2) that starts and ends at rest *)
Definition qbasis : bbasis := mkB [0; 0; 0; 0; 0; 0; 1; 1; 1; 1; 1; 1] 5.
Definition X_held (i : nat) : bspline := match i with O => mkS qbasis [2; 2; 2; 0; 0; 0] | _ => mkS qbasis [0; 0; 0; 2; 2; 2] end.
Lemma qbasis_clamped : clamped_on qbasis 0 1.
Proof.
  split; [split; [|simpl; lia]|unfold clamped; simpl; repeat split; lra].
  apply nondecreasing_bool. intros i H. simpl in H. do 11 (destruct i as [|i]; [simpl; lra|]). lia.
Qed.
Lemma held_unit : forall i, on_unit (X_held i).
Proof. intros [|i]; (split; [apply qbasis_clamped|reflexivity]). Qed.
Lemma held_ex : ring_held X_held (2, 0) (0, 2).
Proof.
  assert (U : forall i o, (o <= 2)%nat -> on_unit (derivative (X_held i) o)) by (intros i o O; apply deriv_unit; [apply held_unit|destruct i; cbn; lia]).
  intros i o tau v H. cbn [ring_fixed fst snd In] in H.
  repeat destruct H as [H|H]; try contradiction; injection H as <- <- <- <-;
    first [rewrite unit_left by (apply U; lia) | rewrite unit_right by (apply U; lia)]; cbn; field.
Qed.

(** ** lines *)
Definition line (d : R) : bspline := mkS cbasis [0; d / 3; 2 * d / 3; d].
Lemma line_unit : forall d, on_unit (line d).
Proof. intros. apply Loop_Examples.c_unit. Qed.
Lemma line_1 : forall d x, 0 <= x <= 1 -> call (derivative (line d) 1) x = d.
Proof. intros d x H. unfold line. rewrite cube_derivative, Obst_Proofs.oseg_call by exact H. field. Qed.
Lemma line_2 : forall d x, 0 <= x <= 1 -> call (derivative (line d) 2) x = 0.
Proof. intros d x H. unfold line. rewrite cube_second, line_call by exact H. field. Qed.
Lemma line_3 : forall d x, 0 <= x <= 1 -> call (derivative (line d) 3) x = 0.
Proof. intros d x H. unfold line. rewrite Mill_Examples.cube_third. unfold call. cbn [sbasis coeffs]. change (mkB [0; 1] 0) with zbasis. rewrite zbasis_eval by exact H. cbn [dot]. field. Qed.
Lemma sampled_unit : forall x, sampled x -> 0 <= x <= 1.
Proof.
  intros x (k & K & ->). pose proof (pos_INR k) as P. assert (Q : INR k <= INR 99) by (apply le_INR; lia).
  replace (INR 99) with 99 in Q by (simpl; lra). split; lra.
Qed.
Lemma peak_same : forall o s v, (forall x, 0 <= x <= 1 -> call (derivative s o) x = v) -> peak o s = Rabs v.
Proof.
  intros o s v H. apply Rle_antisym.
  - apply peak_le. intros x X. rewrite H by (apply sampled_unit, X). lra.
  - rewrite <- (H 0) by lra. apply peak_ge, sampled_0.
Qed.
Lemma Rabs_0 : Rabs 0 = 0. Proof. apply Rabs_R0. Qed.
Definition ones : limits := Lim 1 1 1 1 1 1 1 1 1.
Lemma line_time : forall L dx dy gz, 0 < vx L -> ax L = 1 -> jx L = 1 ->
  guess_time L (line dx, line dy, gz) = Some (105 / 100 * (Rmax (Rabs dx) (Rabs dy) / vx L)).
Proof.
  intros L dx dy gz V A J. unfold guess_time, ratio. rewrite A, J. destruct (Req_EM_T 1 0); [lra|]. destruct (Req_EM_T (vx L) 0); [lra|].
  rewrite !(peak_same 3 (line _) 0) by (intros; apply line_3; assumption). rewrite !(peak_same 2 (line _) 0) by (intros; apply line_2; assumption).
  rewrite (peak_same 1 (line dx) dx) by (intros; apply line_1; assumption). rewrite (peak_same 1 (line dy) dy) by (intros; apply line_1; assumption).
  rewrite Rabs_R0. replace (Rmax 0 0) with 0 by (unfold Rmax; destruct (Rle_dec 0 0); lra). replace (0 / 1) with 0 by field.
  unfold root3. destruct (Req_EM_T 0 0); [|lra]. rewrite sqrt_0. replace (Rmax 0 0) with 0 by (unfold Rmax; destruct (Rle_dec 0 0); lra).
  rewrite (Rmax_right 0); [reflexivity|]. pose proof (Rabs_pos dx). pose proof (Rmax_l (Rabs dx) (Rabs dy)). pose proof (Rinv_0_lt_compat _ V). unfold Rdiv. nra.
Qed.
Lemma time_11 : forall gz, guess_time ones (line 1, line 1, gz) = Some (105 / 100).
Proof.
  intros gz. rewrite line_time by (cbn; lra). rewrite Rabs_R1. replace (Rmax 1 1) with 1 by (unfold Rmax; destruct (Rle_dec 1 1); lra). cbn [vx ones].
  f_equal. field.
Qed.
(** the height is not looked at *)
Theorem guess_z_refuted : exists L gx gy gz T, vx L = vy L /\ ax L = ay L /\ jx L = jy L /\ 0 < vx L /\ 0 < vz L /\
  new_segment L (gx, gy, gz) = Some T /\ 0 < T /\ ~ keeps 1 gz (vz L) T.
Proof.
  exists ones, (line 1), (line 1), (line 300), (105 / 100). cbn [vx vy ax ay jx jy vz ones].
  do 3 (split; [reflexivity|]). split; [lra|]. split; [lra|]. split; [apply guess_passes; [cbn; lra|cbn; lra|cbn; lra|apply time_11]|]. split; [lra|].
  intros H. specialize (H 0 sampled_0). rewrite line_1 in H by lra. rewrite Rabs_pos_eq in H by lra. lra.
Qed.
(** the limit in y is not used for the time *)
Theorem guess_y_refuted : exists L gx gy gz T, 0 < vx L /\ 0 < vy L /\ 0 < ax L /\ 0 < ay L /\ 0 < jx L /\ 0 < jy L /\
  guess_time L (gx, gy, gz) = Some T /\ new_segment L (gx, gy, gz) = None.
Proof.
  exists (Lim 1 (1/2) 1 1 1 1 1 1 1), (line 1), (line 1), (line 1), (105 / 100). cbn [vx vy ax ay jx jy].
  do 6 (split; [lra|]).
  assert (E : guess_time (Lim 1 (1/2) 1 1 1 1 1 1 1) (line 1, line 1, line 1) = Some (105 / 100)).
  { rewrite line_time by (cbn; lra). rewrite Rabs_R1. replace (Rmax 1 1) with 1 by (unfold Rmax; destruct (Rle_dec 1 1); lra). cbn [vx]. f_equal. field. }
  split; [exact E|]. unfold new_segment. rewrite E. unfold checked. cbn [vx vy ax ay jx jy].
  replace (too_high 1 (line 1) (105 / 100) (1 / 2)) with true; [rewrite orb_true_r; reflexivity|].
  symmetry. unfold too_high, Rltb. destruct (Rlt_dec _ _) as [|N]; [reflexivity|]. exfalso. apply N.
  apply Rlt_le_trans with (call (derivative (line 1) 1) 0 / (105 / 100) ^ 1).
  - rewrite line_1 by lra. lra.
  - apply maxl_ge. apply in_map_iff. exists 0. split; [reflexivity|]. apply eval_pts_sampled, sampled_0.
Qed.
(** the check has no absolute values *)
Theorem check_sign_refuted : exists L gx gy gz T, 0 < T /\ checked L (gx, gy, gz) T = Some T /\ 0 < vx L /\ ~ keeps 1 gx (vx L) T.
Proof.
  exists ones, (line (- (300))), (line 0), (line 0), 1. split; [lra|].
  assert (H : forall o d l, (1 <= o <= 3)%nat -> d <= 0 -> 0 <= l -> too_high o (line d) 1 l = false).
  { intros o d l O D Hl. unfold too_high, Rltb. destruct (Rlt_dec _ _) as [C|]; [|reflexivity]. exfalso. revert C. apply Rle_not_lt.
    eapply Rle_trans; [|exact Hl]. apply maxl_le; [apply map_some, pts_some|]. intros w W. apply in_map_iff in W. destruct W as (x & <- & X).
    apply eval_pts_sampled, sampled_unit in X. rewrite pow1. unfold Rdiv. rewrite Rinv_1, Rmult_1_r.
    destruct o as [|[|[|[|o]]]]; try lia; [rewrite line_1|rewrite line_2|rewrite line_3]; trivial; lra. }
  unfold checked. cbn [vx vy ax ay jx jy ones]. rewrite !H by (try lia; lra). split; [reflexivity|]. split; [lra|].
  intros K. specialize (K 0 sampled_0). rewrite line_1 in K by lra. rewrite Rabs_left in K by lra. lra.
Qed.

(** ** free end *)
Definition X_free (i : nat) : bspline :=
  match i with O => line 1 | 1%nat => mkS cbasis [2; 2; 2; 2] | _ => mkS cbasis [6; 6; 6; 6] end.
Lemma free_unit : forall i, on_unit (X_free i).
Proof. intros [|[|i]]; apply Loop_Examples.c_unit. Qed.
Lemma J_free : forall x, 0 <= x <= 1 -> jets X_free x 0%nat 0%nat = x /\ jets X_free x 1%nat 0%nat = 2 /\
  jets X_free x 10%nat 0%nat = 6 /\ jets X_free x 11%nat 0%nat = 6.
Proof.
  intros x I. rewrite (Loop_Examples.jets_c X_free 0 0 (1/3) (2 * 1 / 3) 1 x eq_refl I). rewrite (Loop_Examples.jets_c X_free 1 2 2 2 2 x eq_refl I).
  rewrite (Loop_Examples.jets_c X_free 10 6 6 6 6 x eq_refl I). rewrite (Loop_Examples.jets_c X_free 11 6 6 6 6 x eq_refl I). repeat split; field.
Qed.
Lemma free_solved_ex : solved 0 X_free (free_cons default_free [5; 2] [] 2).
Proof.
  assert (HX : forall i, Loop_Examples.is_kin Loop_Examples.IC (Spl (X_free i))) by (intros [|[|i]]; reflexivity).
  assert (FF : forall i, fits X_free (SV i 0)) by (intros i; split; [apply free_unit|lia]).
  unfold free_cons. cbn [seq flat_map app]. rewrite !default_condition. cbn [Nat.ltb Nat.leb nth]. unfold Loop_Model.goal_cons. cbn [app plus].
  apply solved_cons; [|apply solved_cons; [|apply solved_cons; [|apply solved_cons; [|apply solved_nil]]]];
    (apply (Loop_Examples.solved_kin X_free (fun _ => Loop_Examples.IC) _ Loop_Examples.IC HX); [exact (conj (conj (FF _) Logic.I) (FF _))|reflexivity| | | | |];
     cbn [sval];
     destruct (J_free 0 ltac:(lra)) as (A0 & A1 & A2 & A3); destruct (J_free 1 ltac:(lra)) as (B0 & B1 & B2 & B3);
     destruct (J_free (1/2) ltac:(lra)) as (C0 & C1 & C2 & C3); destruct (J_free (1/3) ltac:(lra)) as (D0 & D1 & D2 & D3);
     destruct (J_free (2/3) ltac:(lra)) as (E0 & E1 & E2 & E3); cbn [Nat.add];
     rewrite ?A0, ?A1, ?A2, ?A3, ?B0, ?B1, ?B2, ?B3, ?C0, ?C1, ?C2, ?C3, ?D0, ?D1, ?D2, ?D3, ?E0, ?E1, ?E2, ?E3; lra).
Qed.
Lemma free_stops_ex : stops 0 X_free (free_end default_free [5; 2] [] 2 4).
Proof.
  intros c H. unfold free_end in H. apply repeat_spec in H. subst c. cbn [fst snd Nat.sub]. exists (X_free 1). split; [reflexivity|].
  rewrite default_condition. cbn [Nat.ltb Nat.leb nth]. pose proof (proj1 (proj2 (J_free 1 ltac:(lra)))) as E.
  change (jets X_free 1 1%nat 0%nat) with (call (X_free 1) 1) in E. lra.
Qed.
Theorem free_rest_refuted : exists X cond, (forall i, on_unit (X i)) /\ solved 0 X (free_cons default_free cond [] 2) /\
  stops 0 X (free_end default_free cond [] 2 4) /\
  call (derivative (X 0%nat) 1) 1 <> 0 /\ call (X 0%nat) 1 <> condition default_free cond [] 0.
Proof.
  exists X_free, [5; 2]. split; [apply free_unit|]. split; [apply free_solved_ex|]. split; [apply free_stops_ex|]. split.
  - change (X_free 0) with (line 1). rewrite line_1 by lra. lra.
  - rewrite default_condition. cbn [Nat.ltb Nat.leb nth]. pose proof (proj1 (J_free 1 ltac:(lra))) as E.
    change (jets X_free 1 0%nat 0%nat) with (call (X_free 0) 1) in E. lra.
Qed.
