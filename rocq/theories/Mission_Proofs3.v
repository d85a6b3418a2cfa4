(** A pause of a mission. *)
From Coq Require Import Reals QArith Qround Qreals ZArith Lra Lia List Arith Bool.
From Coq Require Lqa.
From Verif Require Import Spline_Model Spline_Spec Spline_Proofs Spline_Proofs2 Splop_Spec Concat_Model Vehicle_Model Vehicle_Spec Lift_Model Lift_Spec Lift_Proofs
  Loop_Model Loop_Spec Loop_Proofs Loop_Proofs2 Loop_Proofs3 Guess_Proofs Mission_Model Mission_Spec Mission_Proofs.
From Verif Require Grid_Model Timing_Model Timing_Proofs Timing_Proofs2.
Import ListNotations.
Local Open Scope R_scope.

Lemma constant_unit : forall s, on_unit s -> on_unit (constant s).
Proof. intros s [A B]. split; [exact A|]. unfold sized, constant in *. cbn [coeffs sbasis]. rewrite repeat_length. exact B. Qed.

Lemma constant_value : forall s x, on_unit s -> 0 <= x <= 1 -> call (constant s) x = call s 1.
Proof.
  intros s x U I. pose proof (constant_unit s U) as U'.
  destruct (call_hull (constant s) x (last (coeffs s) 0) (last (coeffs s) 0)) as [A B]; [apply U'|apply U'|apply unit_domain; auto| |].
  - intros c Hc. apply repeat_spec in Hc. lra.
  - rewrite (unit_right s U), <- Timing_Proofs.last_nth. lra.
Qed.
Lemma constant_slope : forall s x, on_unit s -> (1 <= degree (sbasis s))%nat -> 0 <= x <= 1 -> call (derivative (constant s) 1) x = 0.
Proof.
  intros s x U D I. pose proof (deriv_unit (constant s) 1 (constant_unit s U) D) as U'.
  destruct (call_hull (derivative (constant s) 1) x 0 0) as [A B]; [apply U'|apply U'|apply unit_domain; auto| |lra].
  intros c Hc. apply (In_nth _ _ 0) in Hc. destruct Hc as (i & Hi & <-).
  rewrite deriv1_len in Hi. rewrite step_coeffs by exact Hi.
  assert (N : forall j, (j < length (coeffs (constant s)))%nat -> nth j (coeffs (constant s)) 0 = last (coeffs s) 0).
  { intros j Hj. unfold constant in *. cbn [coeffs] in *. rewrite repeat_length in Hj. apply nth_repeat_lt, Hj. }
  rewrite !N by lia. unfold Rdiv. rewrite Rminus_eq_0, Rmult_0_l, Rmult_0_r. lra.
Qed.

Lemma rest_axis_ok : forall g d K, (0 < ts g)%Q -> (1 <= K)%nat -> (d == inject_Z (Z.of_nat K) * ts g)%Q ->
  length (rest_axis g d) = S K /\
  forall j, (j <= K)%nat -> (nth j (rest_axis g d) 0 == inject_Z (Z.of_nat j) * ts g)%Q.
Proof.
  intros g d K S1 K1 E. unfold rest_axis. rewrite (Timing_Proofs.n_samp_whole d (ts g) (Z.of_nat K) S1 E).
  replace (Z.to_nat (Z.of_nat K + 1)) with (S K) by lia. split; [apply Timing_Proofs.linspace_length|].
  intros j J. destruct K as [|k]; [lia|]. unfold Timing_Model.linspace.
  rewrite Timing_Proofs.nth_map_seq by lia. rewrite Nat.add_0_l.
  replace (Z.of_nat (S k) + 1 - 1)%Z with (Z.of_nat (S k)) by lia. replace (Z.of_nat (S (S k)) - 1)%Z with (Z.of_nat (S k)) by lia.
  assert (P : (0 < inject_Z (Z.of_nat (S k)))%Q) by (apply Timing_Proofs2.zq_pos; lia).
  field. intros F. Lqa.lra.
Qed.

Lemma rest_plan_ok : forall g m a d t K, steady g m -> proper_answer g a -> (1 <= K)%nat -> (d == inject_Z (Z.of_nat K) * ts g)%Q ->
  exists p, rest_plan g a d t = Some p /\ length p = S K /\
    forall j, (j <= K)%nat -> (c_time (nth j p no_column) == t + inject_Z (Z.of_nat j) * ts g)%Q /\
      c_state (nth j p no_column) = plan_end g a /\ c_input (nth j p no_column) = repeat 0 (dim g).
Proof.
  intros g m a d t K ST [PA _] K1 E. pose proof ST as (S1 & S2 & S3 & _).
  destruct (rest_axis_ok g d K S1 K1 E) as [LA AX].
  unfold rest_plan, store_splines, store_insert. cbn [concat_splines concat_loop]. set (axis := rest_axis g d) in *.
  eexists. split; [reflexivity|]. rewrite map_length. split; [exact LA|].
  intros j J. pose proof (AX j J) as V. pose proof (AX 0%nat ltac:(lia)) as V0.
  assert (H0 : (hd 0 axis == 0)%Q).
  { replace (hd 0%Q axis) with (nth 0 axis 0%Q) by (destruct axis; reflexivity). rewrite V0. change (inject_Z (Z.of_nat 0)) with 0%Q. ring. }
  rewrite (nth_map_in _ axis j no_column 0%Q) by lia. unfold signals_at. cbn [c_time c_state c_input c_dinput].
  pose proof (Q2R_pos _ S1) as TP.
  assert (VR : Q2R (nth j axis 0%Q) = INR j * Q2R (ts g)) by (rewrite (Qeq_eqR _ _ V), Q2R_nat; reflexivity).
  assert (DR : Q2R d = INR K * Q2R (ts g)) by (rewrite (Qeq_eqR _ _ E), Q2R_nat; reflexivity).
  assert (KP : 1 <= INR K) by (apply le_INR in K1; exact K1).
  assert (JK : 0 <= INR j <= INR K) by (split; [apply pos_INR|apply le_INR, J]).
  assert (DP : 0 < Q2R d) by (rewrite DR; apply Rmult_lt_0_compat; lra).
  assert (XR : 0 <= INR j * Q2R (ts g) <= Q2R d).
  { rewrite DR. split; [apply Rmult_le_pos; lra|apply Rmult_le_compat_r; lra]. }
  assert (XU : 0 <= INR j * Q2R (ts g) / Q2R d <= 1).
  { split; [apply Rmult_le_pos; [lra|left; apply Rinv_0_lt_compat, DP]|]. apply (Rmult_le_reg_r (Q2R d)); [exact DP|].
    unfold Rdiv. rewrite Rmult_assoc, Rinv_l by lra. lra. }
  rewrite !map_map, VR.
  split; [rewrite V, H0; ring|].
  assert (SV : forall o i, (o <= 2)%nat -> (i < dim g)%nat ->
     splev (derivative (scale (constant (path a i)) (Q2R d) 0) o) (INR j * Q2R (ts g)) =
     call (derivative (constant (path a i)) o) (INR j * Q2R (ts g) / Q2R d) / Q2R d ^ o).
  { intros o i Ho Hi. destruct (PA i Hi) as (P1 & P2 & P3). apply stored_value; auto. apply constant_unit, P1. }
  split.
  - apply map_ext_in. intros i Hi. apply in_seq in Hi. pose proof (SV 0%nat i ltac:(lia) ltac:(lia)) as Y. cbn [derivative pow] in Y. rewrite Y.
    rewrite constant_value by (try exact XU; apply PA; lia). field.
  - rewrite <- (map_seq_nth (fun _ => 0) (repeat 0 (dim g)) (dim g) (repeat_length _ _)).
    + apply map_ext_in. intros i Hi. apply in_seq in Hi. destruct (PA i ltac:(lia)) as (P1 & P2 & _). rewrite (SV 1%nat i) by lia.
      rewrite constant_slope by (try exact XU; try exact P1; rewrite P2; lia). unfold Rdiv. apply Rmult_0_l.
    + intros i Hi. rewrite nth_repeat_lt by exact Hi. reflexivity.
Qed.

Lemma still : forall h n s us d, length s = d -> (n < length us)%nat -> (forall j, (j <= n)%nat -> nth j us [] = repeat 0 d) ->
  forall j, (j <= n)%nat -> nth j (integrate h n s us) [] = s.
Proof.
  intros h n s us d LS LU U j. induction j as [|j IH]; intros J; [apply integrate_0|].
  rewrite integrate_step by lia. rewrite IH, !U by lia.
  apply (nth_ext _ _ 0 0); [rewrite (trapezoid_length _ _ _ _ d) by (try exact LS; apply repeat_length); lia|].
  intros i Hi. rewrite (trapezoid_length _ _ _ _ d) in Hi by (try exact LS; apply repeat_length).
  rewrite (trapezoid_nth _ _ _ _ d) by (try exact LS; apply repeat_length).
  rewrite nth_repeat_lt by exact Hi. ring.
Qed.

Theorem rest_ok : forall g m d K s x i L a, steady g m -> placed g s x i -> log (world_of s) = Some L -> L <> [] ->
  last_answer s = Some a -> proper_answer g a -> (1 <= K)%nat -> (d == inject_Z (Z.of_nat K) * ts g)%Q ->
  let y := if ideal_update g then plan_end g a else x in
  exists s' l, rest g d s = Some s' /\ log (world_of s') = Some (L ++ l) /\ length l = K /\
    records g (now (world_of s)) (fun j _ => nth j y 0) (fun _ _ => 0) l /\
    obstacles (world_of s') = map (simulate_obstacle g d) (obstacles (world_of s)) /\
    last_answer s' = Some a /\ cost s' = cost s /\ (now (world_of s') == now (world_of s) + d)%Q /\
    c_state (last (L ++ l) no_column) = y.
Proof.
  intros g m d K s x i L a ST PL LG NE LA PA K1 E y. pose proof ST as (S1 & S2 & S3 & _).
  pose proof PL as (LX & _ & PC).
  assert (XS : c_state (last L no_column) = x).
  { destruct PC as [PC|(_ & l & D1 & D2 & D3)]; [rewrite PC in LG; discriminate|]. rewrite LG in D1. injection D1 as <-. exact D3. }
  destruct (rest_plan_ok g m a d (now (world_of s)) K ST PA K1 E) as (p & RP & LP & PC').
  unfold rest. rewrite LG, LA, RP. unfold simulate_vehicle. cbn [plan log].
  rewrite (Timing_Proofs.n_samp_whole d (ts g) (Z.of_nat K) S1 E).
  assert (PI : Timing_Model.pint (d / ts g) = Z.of_nat K).
  { apply Timing_Proofs.pint_eq. rewrite E. field. intros F. Lqa.lra. }
  rewrite PI, Nat2Z.id, XS.
  assert (CK : cols K p = map (fun j => nth j p no_column) (seq 1 K)) by (apply firstn_skip; lia).
  assert (YL : length y = dim g) by (unfold y, plan_end; destruct (ideal_update g); [rewrite map_length, seq_length; reflexivity|exact LX]).
  assert (X : exists l, (if ideal_update g then Some (L ++ cols K p)
     else Some (L ++ map (fun q => mkC (c_time (fst q)) (snd q) (c_input (fst q)) (c_dinput (fst q)))
        (combine (cols K p) (cols K (integrate (Q2R (ts g)) K x (map c_input p)))))) = Some (L ++ l) /\ length l = K /\
     forall j, (j < K)%nat -> (c_time (nth j l no_column) == now (world_of s) + inject_Z (Z.of_nat (S j)) * ts g)%Q /\
       c_state (nth j l no_column) = y /\ c_input (nth j l no_column) = repeat 0 (dim g)).
  { unfold y. destruct (ideal_update g).
    - eexists. split; [reflexivity|]. rewrite CK, map_length, seq_length. split; [reflexivity|]. intros j J.
      rewrite Timing_Proofs.nth_map_seq by exact J. apply (PC' (1 + j)%nat). lia.
    - eexists. split; [reflexivity|]. rewrite CK, (firstn_skip [] (integrate _ _ _ _) K) by (rewrite integrate_length; lia).
      rewrite combine_maps, map_map, map_length, seq_length. split; [reflexivity|]. intros j J.
      rewrite Timing_Proofs.nth_map_seq by exact J. cbn [fst snd c_time c_state c_input].
      destruct (PC' (1 + j)%nat ltac:(lia)) as (A & B & C). split; [exact A|]. split; [|exact C].
      apply (still _ _ _ _ (dim g)); [exact LX|rewrite map_length; lia| |lia].
      intros q Hq. rewrite nth_map_col by lia. apply PC', Hq. }
  destruct X as (l & X1 & X2 & X3). rewrite X1.
  eexists. exists l. split; [reflexivity|]. cbn [world_of log obstacles last_answer cost now].
  split; [reflexivity|]. split; [exact X2|]. split.
  { intros j J. rewrite X2 in J. destruct (X3 j J) as (A & B & C). split; [exact A|]. split.
    - rewrite B. symmetry. apply map_seq_nth; [exact YL|]. reflexivity.
    - rewrite C. symmetry. apply map_seq_nth; [apply repeat_length|]. intros q Hq. rewrite nth_repeat_lt by exact Hq. reflexivity. }
  split; [reflexivity|]. split; [reflexivity|]. split; [reflexivity|]. split.
  - unfold Timing_Model.chosen. assert (Z : Qeq_bool d 0 = false).
    { destruct (Qeq_bool d 0) eqn:B; [|reflexivity]. apply Qeq_bool_iff in B. rewrite E in B. exfalso.
      assert (P : (0 < inject_Z (Z.of_nat K) * ts g)%Q) by (apply Qmult_lt_0_compat; [apply Timing_Proofs2.zq_pos; lia|exact S1]).
      Lqa.lra. }
    rewrite Z. reflexivity.
  - rewrite (nth_last_app L l K) by lia. apply X3. lia.
Qed.
