(** Machining runs that meet the hypotheses, and runs that show what may go wrong. *)
From Coq Require Import Reals QArith Qreals ZArith Lra Lia List Arith Bool.
From Coq Require Lqa.
From Verif Require Import Spline_Model Spline_Spec Splop_Spec Spline_Proofs Spline_Proofs3 Splop_Proofs4 Vehicle_Model Multi_Model Multi_Spec Multi_Proofs Multi_Proofs2
  Concat_Model Concat_Spec Concat_Proofs4 Concat_Proofs5 Concat_Proofs6 Concat_Proofs7 Concat_Proofs8 Loop_Model Loop_Proofs2 Loop_Examples Mill_Model Mill_Spec Mill_Proofs Mill_Proofs2 Mill_Proofs3.
From Verif Require Timing_Model Grid_Model Gcode_Model Obst_Proofs.
Import ListNotations.
Local Open Scope R_scope.

(** ** the new input after a failure *)
Theorem perturbed_line : forall x1 y1 z1 x2 y2 z2, finite_line [x1; y1; z1] [x2; y2; z2] = true -> 1 / 1000 < Rabs (y2 - y1) ->
  perturbed [x1; y1; z1] [x2; y2; z2] = [x2 + (x2 - x1) * (1 / 100); y2 + (y2 - y1) * (1 / 100); 0].
Proof.
  intros x1 y1 z1 x2 y2 z2 F L. unfold perturbed, finite_line in *. cbn [nth] in *. unfold Spline_Model.Rltb in *.
  destruct (Rlt_dec (1 / 1000) (Rabs (y2 - y1))) as [_|H]; [|lra]. cbn [andb] in F.
  apply negb_true_iff in F. assert (N : x2 - x1 <> 0).
  { intros E. rewrite E in F. unfold Reqb in F. destruct (Req_EM_T 0 0); [discriminate|lra]. }
  apply f_equal. f_equal. field. exact N.
Qed.
Theorem perturbed_flat : forall x1 y1 z1 x2 y2 z2, Rabs (y2 - y1) <= 1 / 1000 ->
  perturbed [x1; y1; z1] [x2; y2; z2] = [x2 + (x2 - x1) * (1 / 100); y1; 0].
Proof.
  intros x1 y1 z1 x2 y2 z2 L. unfold perturbed. cbn [nth]. unfold Spline_Model.Rltb.
  destruct (Rlt_dec (1 / 1000) (Rabs (y2 - y1))) as [H|_]; [lra|reflexivity].
Qed.
Theorem vertical_line : finite_line [0; 0; 0] [0; 1; 0] = false.
Proof.
  unfold finite_line. cbn [nth]. unfold Spline_Model.Rltb, Reqb. rewrite Rminus_0_r, Rabs_R1.
  destruct (Rlt_dec (1 / 1000) 1) as [_|H]; [|lra]. destruct (Req_EM_T (0 - 0) 0) as [_|H]; [reflexivity|lra].
Qed.

(** a result that is shorter than a sample is not stored: the end values come
    from the splines of an earlier pass *)
Theorem short_result : forall g a b b' s0 rest l, too_short g a = true -> kept b = Some (s0 :: rest) -> plan b = Some l -> good a = true ->
  mill_pass g a b = Some b' -> ends b' = Some (end_values s0 (Q2R (first_time a))) /\ kept b' = kept b.
Proof.
  intros g a b b' s0 rest l SH K PL G E. destruct (pass_inv g a b b' E) as (t & p & w & s & r & l' & _ & _ & ST & E4).
  unfold mill_store in ST. rewrite SH, K, PL in ST. injection ST as <- <- <-. cbn zeta in E4. unfold check_results in E4. rewrite G in E4.
  injection E4 as <-. cbn [ends kept]. auto.
Qed.

(** ** passes that go through *)
Definition ready (w : Gcode_Model.sched) (c : nat) (nu : bool) (b : bench) : Prop :=
  kept b <> None /\ ends b <> None /\ (exists r c1 c2, traj b = r ++ [c1; c2]) /\ cnt b = Some c /\ window b = w /\ no_update b = nu.
Definition stays (g : workshop) (w : Gcode_Model.sched) : Prop :=
  forall s, Gcode_Model.check_segments (rooms g) (goal g) (inside g s) w = Some true.
Definition single (g : workshop) (a : result) : Prop := exists sg T, pieces a = [sg] /\ times a = [T] /\ too_short g a = false.
Lemma single_store : forall g a b, single g a -> exists sg l, mill_store g a b = Some (Some [sg], Some l) /\ pieces a = [sg].
Proof.
  intros g a b (sg & T & P & Ti & S). unfold mill_store. rewrite S. unfold mill_samples. rewrite P, Ti. cbn [map store_splines concat_splines concat_loop].
  eauto.
Qed.
Lemma stays_window : forall g s b, stays g (window b) -> mill_window g s b = Some (window b).
Proof. intros g s b S. unfold mill_window. rewrite (S s). reflexivity. Qed.
Lemma good_easy : forall g a b, single g a -> good a = true -> stays g (window b) -> traj b <> [] ->
  (kept b = None \/ ends b <> None) -> (no_update b = true -> cnt b <> None) ->
  exists b' c, mill_pass g a b = Some b' /\ ready (window b) c false b' /\ (if no_update b then cnt b = Some c else c = 0%nat).
Proof.
  intros g a b SI G ST TR KE NU. destruct (single_store g a b SI) as (sg & l & MS & P).
  unfold mill_pass.
  assert (exists t p, mill_start b = Some (t, p)) as (t & p & ->).
  { unfold mill_start. destruct (kept b); [|eauto]. destruct KE as [KE|KE]; [discriminate|]. destruct (ends b); [eauto|congruence]. }
  rewrite (stays_window g _ b ST), MS. unfold check_results. rewrite G.
  cbn [traj ends clock dep_clock no_update cnt window curr motion0 time_log pred kept plan].
  destruct (rev (traj b ++ cols (Z.to_nat (Timing_Model.n_samp (first_time a) (step g))) l)) as [|x r] eqn:RV.
  { apply (f_equal (@rev _)) in RV. rewrite rev_involutive in RV. cbn in RV. apply app_eq_nil in RV. destruct RV. congruence. }
  apply (f_equal (@rev _)) in RV. rewrite rev_involutive in RV. cbn [rev] in RV.
  destruct (no_update b).
  - destruct (cnt b) as [c|]; [|destruct (NU eq_refl eq_refl)]. eexists; exists c. split; [reflexivity|]. split; [|reflexivity].
    unfold ready. cbn [traj ends cnt window kept no_update]. repeat split; try discriminate.
    exists (rev r), x, (end_values sg (Q2R (first_time a))). unfold appended. rewrite app_assoc, RV, <- app_assoc. reflexivity.
  - eexists; exists 0%nat. split; [reflexivity|]. split; [|reflexivity].
    unfold ready. cbn [traj ends cnt window kept no_update]. repeat split; try discriminate.
    exists (rev r), x, (end_values sg (Q2R (first_time a))). unfold appended. rewrite app_assoc, RV, <- app_assoc. reflexivity.
Qed.
Lemma bad_easy : forall g a b w c nu, single g a -> good a = false -> stays g w -> ready w c nu b -> (c < 20)%nat ->
  exists b', mill_pass g a b = Some b' /\ ready w (S c) true b'.
Proof.
  intros g a b w c nu SI G ST (K & EN & (r & c1 & c2 & TB) & CN & W & NU) C. destruct (single_store g a b SI) as (sg & l & MS & P).
  unfold mill_pass, mill_start. destruct (kept b) eqn:KB; [|congruence]. destruct (ends b) as [e|] eqn:EB; [|congruence].
  rewrite stays_window by (rewrite W; exact ST). rewrite MS. unfold check_results. rewrite G.
  cbn [traj ends clock dep_clock no_update cnt window curr motion0 time_log pred kept plan].
  rewrite TB, retouched_total, CN. destruct (Nat.ltb_spec 20 (S c)) as [H|_]; [lia|].
  eexists. split; [reflexivity|]. unfold ready. cbn [traj ends cnt window kept no_update]. repeat split; try discriminate; auto.
  eexists r, c1, _. reflexivity.
Qed.
Lemma bad_many : forall g a w n b c nu, single g a -> good a = false -> stays g w -> ready w c nu b -> (c + n <= 20)%nat -> (0 < n)%nat ->
  exists b', mill_passes g (repeat a n) b = Some b' /\ ready w (c + n) true b'.
Proof.
  intros g a w n. induction n as [|n IH]; intros b c nu SI G ST R C N; [lia|].
  destruct (bad_easy g a b w c nu SI G ST R ltac:(lia)) as (b1 & E1 & R1). cbn [repeat mill_passes]. rewrite E1.
  destruct n as [|n].
  - exists b1. split; [reflexivity|]. rewrite Nat.add_1_r. exact R1.
  - destruct (IH b1 (S c) true SI G ST R1 ltac:(lia) ltac:(lia)) as (b2 & E2 & R2). exists b2. split; [exact E2|].
    replace (c + S (S n))%nat with (S c + S n)%nat by lia. exact R2.
Qed.

(** ** a workshop with one room, and answers along x *)
Definition room0 : Gcode_Model.room := Gcode_Model.Room 0 (0, 0, 0)%Q (1, 0, 0)%Q.
Definition shop1 : workshop := mkWs (1 # 2) 3 [room0] (1, 0, 0)%Q (fun _ _ => true).
Definition along (c : list R) (ok : bool) : result :=
  mkR [[mkS cbasis c; mkS cbasis [0; 0; 0; 0]; mkS cbasis [0; 0; 0; 0]]] [1%Q] ok.
Definition bench1 : bench := mkBench [mkP [0; 0; 0] [0; 0; 0] [0; 0; 0] [0; 0; 0]] None 0 0 false None
  (Gcode_Model.Sched 0 1 [room0] None) [0; 0; 0] 1 [] ([0; 0; 0], [0; 0; 0], [0; 0; 0]) None None.
Lemma bench1_ok : bench0 shop1 1 [0; 0; 0] 1 = Some bench1.
Proof. reflexivity. Qed.
Lemma shop1_stays : stays shop1 (Gcode_Model.Sched 0 1 [room0] None).
Proof. intros s. reflexivity. Qed.
Lemma along_single : forall a b c d ok, single shop1 (along [a; b; c; d] ok).
Proof. intros. eexists; eexists. repeat split. Qed.
Lemma along_fit : forall a b c d ok, fit shop1 (along [a; b; c; d] ok).
Proof.
  intros. unfold fit, along; cbn [pieces times]. split.
  { constructor; [|constructor]. split; [reflexivity|]. constructor; [apply cube_regular|]. constructor; [apply cube_regular|].
    constructor; [apply cube_regular|constructor]. }
  split; [cbn; lia|]. split; [reflexivity|]. split; [constructor; [reflexivity|constructor]|]. discriminate.
Qed.
Lemma along_within : forall a b c d ok, within shop1 (along [a; b; c; d] ok).
Proof. intros. unfold within. vm_compute. discriminate. Qed.
Lemma along_connected : forall a b c d ok, connected (along [a; b; c; d] ok).
Proof. intros. split; [constructor|]. intros i Hi. exact I. Qed.

Lemma Q2R_1 : Q2R 1 = 1. Proof. unfold Q2R; cbn; field. Qed.
(** values at the two ends *)

Lemma cube_third : forall a b c d, derivative (mkS cbasis [a; b; c; d]) 3 = mkS (mkB [0; 1] 0) [6 * (d - 3 * c + 3 * b - a)].
Proof.
  intros a b c d. unfold derivative. simpl. f_equal. unfold deriv_step. simpl. apply f_equal2; [field|reflexivity].
Qed.
Lemma step_ok : forall v, well_formed (mkB [0; 1] 0) /\ sized (mkS (mkB [0; 1] 0) [v]).
Proof.
  intros v. split; [split; [|cbn; lia]|reflexivity]. intros i j H. cbn [knots] in *. cbn [length] in H.
  destruct i as [|[|i]]; destruct j as [|[|j]]; cbn; try lia; lra.
Qed.
Lemma step_ends : forall v, call (mkS (mkB [0; 1] 0) [v]) 0 = v /\ call (mkS (mkB [0; 1] 0) [v]) 1 = v.
Proof.
  intros v. destruct (step_ok v) as [W Z]. split.
  - pose proof (call_left_end (mkS (mkB [0; 1] 0) [v]) W Z) as H. simpl in H. rewrite H; auto. unfold dom_left; simpl; lra.
  - pose proof (call_right_end (mkS (mkB [0; 1] 0) [v]) W Z) as H.
    change (dom_right (sbasis (mkS (mkB [0; 1] 0) [v]))) with 1 in H. simpl in H. rewrite H; auto. lra.
Qed.
Lemma ends_0 : forall a b c d, in_seconds (mkS cbasis [a; b; c; d]) 1 0 0 = a /\ in_seconds (mkS cbasis [a; b; c; d]) 1 1 0 = 3 * (b - a) /\
  in_seconds (mkS cbasis [a; b; c; d]) 1 2 0 = 6 * (c - 2 * b + a) /\ in_seconds (mkS cbasis [a; b; c; d]) 1 3 0 = 6 * (d - 3 * c + 3 * b - a).
Proof.
  intros. unfold in_seconds. rewrite !pow1. replace (0 / 1) with 0 by field. rewrite cube_derivative, cube_second, cube_third.
  change (derivative (mkS cbasis [a; b; c; d]) 0) with (mkS cbasis [a; b; c; d]).
  rewrite cube_start, quad_start, line_call by lra. rewrite (proj1 (step_ends _)). repeat split; field.
Qed.
Lemma ends_1 : forall a b c d, in_seconds (mkS cbasis [a; b; c; d]) 1 0 1 = d /\ in_seconds (mkS cbasis [a; b; c; d]) 1 1 1 = 3 * (d - c) /\
  in_seconds (mkS cbasis [a; b; c; d]) 1 2 1 = 6 * (d - 2 * c + b) /\ in_seconds (mkS cbasis [a; b; c; d]) 1 3 1 = 6 * (d - 3 * c + 3 * b - a).
Proof.
  intros. unfold in_seconds. rewrite !pow1. replace (1 / 1) with 1 by field. rewrite cube_derivative, cube_second, cube_third.
  change (derivative (mkS cbasis [a; b; c; d]) 0) with (mkS cbasis [a; b; c; d]).
  rewrite cube_end, quad_end, line_call by lra. rewrite (proj2 (step_ends _)). repeat split; field.
Qed.
Lemma along_end : forall a b c d ok, end_values (hd [] (pieces (along [a; b; c; d] ok))) (Q2R 1) =
  mkP [d; 0; 0] [3 * (d - c); 0; 0] [6 * (d - 2 * c + b); 0; 0] [6 * (d - 3 * c + 3 * b - a); 0; 0].
Proof.
  intros. unfold end_values, along. cbn [pieces hd map]. rewrite Q2R_1. rewrite !cube_derivative, !cube_second, !cube_third.
  rewrite !cube_end, !quad_end, !line_call by lra. rewrite !(proj2 (step_ends _)). 
  f_equal; repeat (apply f_equal2; [field|]); reflexivity.
Qed.
Lemma along_init : forall a b c d ok, tool_init ([a; 0; 0], [3 * (b - a); 0; 0], [6 * (c - 2 * b + a); 0; 0]) (hd [] (pieces (along [a; b; c; d] ok))) 1
  = [0; 0; 0; 0; 0; 0; 0; 0; 0].
Proof.
  intros. unfold tool_init, init_values, along. cbn [pieces hd map app nth fst snd]. replace (0 / 1) with 0 by field.
  rewrite !cube_derivative, !cube_second.
  change (derivative (mkS cbasis [a; b; c; d]) 0) with (mkS cbasis [a; b; c; d]).
  change (derivative (mkS cbasis [0; 0; 0; 0]) 0) with (mkS cbasis [0; 0; 0; 0]).
  rewrite !evalspline_call by reflexivity. rewrite !cube_start, !quad_start, !line_call by lra. cbn [pow].
  repeat (apply f_equal2; [field|]); reflexivity.
Qed.

(** ** a run of two segments: t^3, then on with the same acceleration but
    without jerk *)
Definition run_ok : list result := [along [0; 0; 0; 1] true; along [1; 2; 4; 7] true].
Lemma start_first : forall a b c d ok s u du, [a; 0; 0] = s -> [3 * (b - a); 0; 0] = u -> [6 * (c - 2 * b + a); 0; 0] = du ->
  Forall (fun v => v = 0) (tool_init (s, u, du) (hd [] (pieces (along [a; b; c; d] ok))) (Q2R (first_time (along [a; b; c; d] ok)))).
Proof.
  intros a b c d ok s u du <- <- <-. change (first_time (along [a; b; c; d] ok)) with 1%Q. rewrite Q2R_1, along_init. repeat constructor.
Qed.
Lemma triple : forall x y z x' y' z' : R, x = x' -> y = y' -> z = z' -> [x; y; z] = [x'; y'; z'].
Proof. intros. congruence. Qed.
Lemma bench1_follows : follows [] [0; 0; 0] bench1.
Proof. repeat split. Qed.
Lemma first_begins : forall b c d ok, 3 * (b - 0) = 0 -> 6 * (c - 2 * b + 0) = 0 -> begins bench1 (along [0; b; c; d] ok).
Proof.
  intros b c d ok B C t p E. injection E as <- <-. apply start_first; auto; apply triple; auto.
Qed.
Lemma good_next : forall a b c d as_ b1, mill_pass shop1 (along [a; b; c; d] true) as_ = Some b1 ->
  exists t, mill_start b1 = Some (t, ([d; 0; 0], [3 * (d - c); 0; 0], [6 * (d - 2 * c + b); 0; 0])).
Proof.
  intros a b c d as_ b1 E. destruct (good_pass _ _ _ _ (along_fit a b c d true) eq_refl E) as (t & p & w & sg & r & l & _ & _ & P & _ & ->).
  unfold mill_start. cbn [kept ends clock motion0]. eexists. f_equal. f_equal.
  replace sg with (hd [] (pieces (along [a; b; c; d] true))) by (rewrite P; reflexivity).
  change (first_time (along [a; b; c; d] true)) with 1%Q. rewrite along_end. reflexivity.
Qed.
Lemma run_ok_passes : exists b, mill_passes shop1 run_ok bench1 = Some b /\ window b = window bench1 /\ no_update b = false.
Proof.
  unfold run_ok.
  destruct (good_easy shop1 (along [0; 0; 0; 1] true) bench1 (along_single _ _ _ _ _) eq_refl shop1_stays ltac:(discriminate) (or_introl eq_refl) ltac:(discriminate))
    as (b1 & c1 & E1 & R1 & _). pose proof R1 as (K & EN & (r & x & y & TB) & CN & W & NU).
  destruct (good_easy shop1 (along [1; 2; 4; 7] true) b1 (along_single _ _ _ _ _) eq_refl) as (b2 & c2 & E2 & R2 & _).
  - rewrite W. apply shop1_stays.
  - rewrite TB. destruct r; discriminate.
  - right. exact EN.
  - rewrite NU. discriminate.
  - exists b2. cbn [mill_passes]. rewrite E1, E2. destruct R2 as (_ & _ & _ & _ & W2 & N2). rewrite W in W2. auto.
Qed.
Lemma two_begin : forall g b0 a1 a2, begins b0 a1 -> (forall b1, mill_pass g a1 b0 = Some b1 -> begins b1 a2) -> all_begin g b0 [a1; a2].
Proof.
  intros g b0 a1 a2 B1 B2 k a b N G P. destruct k as [|[|k]]; cbn [nth_error firstn mill_passes] in *.
  - injection N as <-. injection P as <-. exact B1.
  - injection N as <-. destruct (mill_pass g a1 b0) as [b1|] eqn:E; [|discriminate]. injection P as <-. auto.
  - destruct k; discriminate.
Qed.
Lemma run_ok_begins : all_begin shop1 bench1 run_ok.
Proof.
  apply two_begin; [apply first_begins; ring|]. intros b1 E t p S0.
  destruct (good_next _ _ _ _ _ _ E) as (t' & S1). rewrite S1 in S0. injection S0 as <- <-.
  apply start_first; apply triple; ring.
Qed.
Lemma run_ok_all : Forall (fit shop1) run_ok /\ Forall (fun a => good a = true) run_ok /\ Forall connected run_ok /\ Forall (within shop1) run_ok.
Proof.
  repeat split; unfold run_ok; (apply Forall_cons; [|apply Forall_cons; [|constructor]]);
    first [apply along_fit|reflexivity|apply along_connected|apply along_within].
Qed.
Theorem jerk_jumps : exists g n s guess b0 as_ b, bench0 g n s guess = Some b0 /\ Forall (fit g) as_ /\ Forall (fun a => good a = true) as_ /\
  all_begin g b0 as_ /\ mill_passes g as_ b0 = Some b /\ ~ agrees 3 (chain 0 as_).
Proof.
  destruct run_ok_passes as (b & E & _). destruct run_ok_all as (F & G & _).
  exists shop1, 1%nat, [0; 0; 0], 1%Q, bench1, run_ok, b. split; [exact bench1_ok|]. split; [exact F|]. split; [exact G|].
  split; [exact run_ok_begins|]. split; [exact E|]. change (chain 0 run_ok) with [(mkS cbasis [0; 0; 0; 1], Q2R 1); (mkS cbasis [1; 2; 4; 7], Q2R 1)].
  rewrite Q2R_1. cbn [agrees]. intros [H _].
  destruct (ends_1 0 0 0 1) as (_ & _ & _ & A). destruct (ends_0 1 2 4 7) as (_ & _ & _ & B). rewrite A, B in H. lra.
Qed.

(** the sample at the end of a segment is recorded twice when the segment lasts
    a whole number of samples; the plot spreads the columns evenly *)
Theorem end_twice : exists g as_ t u l, (0 < step g)%Q /\ Forall (fit g) as_ /\ Forall (within g) as_ /\ Forall connected as_ /\
  (exists n s guess b0 b, bench0 g n s guess = Some b0 /\ all_begin g b0 as_ /\ mill_passes g as_ b0 = Some b /\
     clock b = t /\ motion0 b = u /\ traj b = l) /\
  nth 2 (0 :: stamps g 0 as_) 0 = nth 3 (0 :: stamps g 0 as_) 0 /\ (2 < length (stamps g 0 as_))%nat /\
  Q2R (nth 1 (drawn_times t u l) 0%Q) <> nth 1 (0 :: stamps g 0 as_) 0.
Proof.
  destruct (good_easy shop1 (along [0; 0; 0; 1] true) bench1 (along_single _ _ _ _ _) eq_refl shop1_stays ltac:(discriminate) (or_introl eq_refl) ltac:(discriminate))
    as (b1 & c1 & E1 & R1 & _).
  assert (SA : samples shop1 (along [0; 0; 0; 1] true) = 2%nat) by (vm_compute; reflexivity).
  pose proof E1 as E1'. 
  destruct (good_pass _ _ _ _ (along_fit 0 0 0 1 true) eq_refl E1) as (t & p & w & sg & r & l & S0 & _ & P & MS & EB).
  injection S0 as <- _.
  assert (LL : length (traj b1) = 4%nat).
  { rewrite EB. cbn [traj]. unfold appended. fold (samples shop1 (along [0; 0; 0; 1] true)). rewrite SA, !app_length. cbn [length bench1 traj].
    assert (length (cols 2 l) = 2%nat); [|lia].
    unfold mill_samples in MS.
    match type of MS with match ?x with _ => _ end = _ => destruct x as [ss|]; [|discriminate] end.
    apply (f_equal (fun o => match o with Some l => length l | None => 0%nat end)) in MS. rewrite map_length in MS.
    match type of MS with ?x = _ => assert (ML : x = 3%nat) by (vm_compute; reflexivity); rewrite ML in MS; clear ML end.
    unfold cols. rewrite firstn_length, skipn_length, <- MS. reflexivity. }
  exists shop1, [along [0; 0; 0; 1] true], (clock b1), (motion0 b1), (traj b1).
  split; [reflexivity|]. split; [constructor; [apply along_fit|constructor]|]. split; [constructor; [apply along_within|constructor]|].
  split; [constructor; [apply along_connected|constructor]|]. split.
  { exists 1%nat, [0; 0; 0], 1%Q, bench1, b1. split; [exact bench1_ok|]. split.
    - intros k a b N G H. destruct k as [|k]; [|destruct k; discriminate]. injection N as <-. injection H as <-. apply first_begins; ring.
    - cbn [mill_passes]. rewrite E1. auto. }
  cbn [stamps]. rewrite SA. change (first_time (along [0; 0; 0; 1] true)) with 1%Q. change (step shop1) with (1 # 2)%Q. rewrite Q2R_1.
  assert (H2 : Q2R (1 # 2) = 1 / 2) by (unfold Q2R; cbn; field). rewrite H2. cbn [seq map app nth length INR].
  split; [field|]. split; [lia|].
  unfold drawn_times. rewrite LL, EB. cbn [clock motion0]. change (first_time (along [0; 0; 0; 1] true)) with 1%Q.
  replace (Q2R (nth 1 (Timing_Model.linspace 0 (0 + 1) 4) 0%Q)) with (1 / 3); [lra|].
  transitivity (Q2R (1 # 3)); [unfold Q2R; cbn; field|]. apply Qeq_eqR. vm_compute. reflexivity.
Qed.

(** ** a failure: the next segment starts with the speed at which the failed
    one would have ended *)
Definition run_bad : list result := [along [0; 0; 0; 0] true; along [0; 1/3; 2/3; 1] false; along [0; 1/3; 2/3; 1] true].
Theorem speed_jumps : exists g n s guess b0 as_ b, bench0 g n s guess = Some b0 /\ Forall (fit g) as_ /\ all_begin g b0 as_ /\
  mill_passes g as_ b0 = Some b /\ ~ agrees 1 (chain 0 (carried as_)) /\
  ~ (clock b + motion0 b == total_of (time_log b))%Q.
Proof.
  set (a1 := along [0; 0; 0; 0] true). set (a2 := along [0; 1/3; 2/3; 1] false). set (a3 := along [0; 1/3; 2/3; 1] true).
  destruct (good_easy shop1 a1 bench1 (along_single _ _ _ _ _) eq_refl shop1_stays ltac:(discriminate) (or_introl eq_refl) ltac:(discriminate))
    as (b1 & c1 & E1 & R1 & C0). cbn in C0. subst c1. pose proof R1 as (K1 & _ & _ & _ & W1 & NU1).
  destruct (bad_easy shop1 a2 b1 _ 0 false (along_single _ _ _ _ _) eq_refl shop1_stays R1 ltac:(lia)) as (b2 & E2 & R2).
  pose proof R2 as (K & EN & (r & x & y & TB) & CN & W & NU).
  destruct (good_easy shop1 a3 b2 (along_single _ _ _ _ _) eq_refl) as (b3 & c3 & E3 & R3 & _).
  { rewrite W. apply shop1_stays. } { rewrite TB. destruct r; discriminate. } { right. exact EN. } { rewrite CN. discriminate. }
  destruct (good_next _ _ _ _ _ _ E1) as (t1 & S1).
  destruct (retried shop1 a2 b1 b2 _ _ eq_refl E2 K1 S1) as (u & S2 & _). cbn [fst snd] in S2.
  destruct (rejected shop1 a2 b1 b2 eq_refl E2) as
    (r' & c1 & c2 & e0 & e & t' & p' & c & T1 & T2 & N1 & N2 & Q1 & Q2 & Q3 & LG & NU' & C1 & C2 & C3 & S1' & CK & K' & M & WW & s0 & rest & l & MS & QI).
  assert (U : u = [3 * (1 - 2/3); 0; 0]).
  { unfold mill_start in S2. destruct (kept b2); [|congruence]. rewrite N2 in S2.
    apply (f_equal (fun o => match o with Some (_, (_, u, _)) => u | None => [] end)) in S2. cbv beta iota in S2. rewrite <- S2, QI.
    destruct (single_store shop1 a2 b1 (along_single _ _ _ _ _)) as (sg & l' & MS' & P). rewrite MS' in MS. injection MS as <- _ _.
    replace sg with (hd [] (pieces a2)) by (rewrite P; reflexivity). change (first_time a2) with 1%Q. unfold a2. rewrite along_end. reflexivity. }
  exists shop1, 1%nat, [0; 0; 0], 1%Q, bench1, [a1; a2; a3], b3. split; [exact bench1_ok|].
  split; [repeat (constructor; [apply along_fit|]); constructor|]. split.
  { intros k a b N G H. destruct k as [|[|[|k]]]; cbn [nth_error firstn mill_passes] in *.
    - injection N as <-. injection H as <-. apply first_begins; ring.
    - injection N as <-. discriminate.
    - injection N as <-. rewrite E1, E2 in H. injection H as <-. intros t p S3. rewrite S2 in S3. injection S3 as <- <-. rewrite U.
      apply start_first; apply triple; field.
    - destruct k; discriminate. }
  split; [cbn [mill_passes]; rewrite E1, E2, E3; reflexivity|]. split.
  - change (chain 0 (carried [a1; a2; a3])) with [(mkS cbasis [0; 0; 0; 0], Q2R 1); (mkS cbasis [0; 1/3; 2/3; 1], Q2R 1)].
    rewrite Q2R_1. cbn [agrees]. intros [H _].
    destruct (ends_1 0 0 0 0) as (_ & A & _). destruct (ends_0 0 (1/3) (2/3) 1) as (_ & B & _). rewrite A, B in H. lra.
  - rewrite (log_carried shop1 [a1; a2; a3] bench1 b3) by (try reflexivity; cbn [mill_passes]; rewrite E1, E2, E3; reflexivity).
    destruct (good_pass _ _ _ _ (along_fit _ _ _ _ true) eq_refl E3) as (t & p & w & sg & rr & ll & S3 & _ & P & _ & EB).
    rewrite EB. cbn [clock motion0]. rewrite S2 in S3. injection S3 as <- _.
    destruct (good_pass _ _ _ _ (along_fit _ _ _ _ true) eq_refl E1) as (t0 & p0 & w0 & sg0 & rr0 & ll0 & S00 & _ & P0 & _ & EB1).
    rewrite EB1 in S1. unfold mill_start in S1. cbn [kept ends clock motion0] in S1. injection S1 as <- _ _ _.
    unfold mill_start in S00. cbn in S00. injection S00 as <- _.
    vm_compute. discriminate.
Qed.

(** ** the count of failures survives a success *)
Theorem count_survives : exists g n s guess b0 ok bad b, bench0 g n s guess = Some b0 /\ good ok = true /\ good bad = false /\
  mill_passes g (ok :: repeat bad 20 ++ [ok]) b0 = Some b /\ no_update b = false /\ mill_pass g bad b = None.
Proof.
  set (a1 := along [0; 0; 0; 0] true). set (a2 := along [0; 0; 0; 0] false).
  destruct (good_easy shop1 a1 bench1 (along_single _ _ _ _ _) eq_refl shop1_stays ltac:(discriminate) (or_introl eq_refl) ltac:(discriminate))
    as (b1 & c1 & E1 & R1 & C0). cbn in C0. subst c1.
  destruct (bad_many shop1 a2 _ 20 b1 0 false (along_single _ _ _ _ _) eq_refl shop1_stays R1 ltac:(lia) ltac:(lia)) as (b2 & E2 & R2).
  pose proof R2 as (K & EN & (r & x & y & TB) & CN & W & NU). cbn [Nat.add] in CN.
  destruct (good_easy shop1 a1 b2 (along_single _ _ _ _ _) eq_refl) as (b3 & c3 & E3 & R3 & C3).
  { rewrite W. apply shop1_stays. } { rewrite TB. destruct r; discriminate. } { right. exact EN. } { rewrite CN. discriminate. }
  rewrite NU, CN in C3. injection C3 as <-.
  exists shop1, 1%nat, [0; 0; 0], 1%Q, bench1, a1, a2, b3. split; [exact bench1_ok|]. split; [reflexivity|]. split; [reflexivity|].
  split. { cbn [mill_passes]. rewrite E1, passes_app, E2. cbn [mill_passes]. rewrite E3. reflexivity. }
  split; [apply R3|]. destruct (mill_pass shop1 a2 b3) as [b4|] eqn:E4; [|reflexivity].
  destruct (failures_counted shop1 [a2] b3 b4) as (c & D1 & _ & D3); [constructor; [reflexivity|constructor]|cbn [mill_passes]; rewrite E4; reflexivity|discriminate|].
  destruct R3 as (_ & _ & _ & CC & _). rewrite CC in D1. injection D1 as <-. cbn in D3. lia.
Qed.

(** ** stopping with blocks left *)
Definition three : list Gcode_Model.room := [Gcode_Model.Room 0 (0, 0, 0)%Q (1, 0, 0)%Q; Gcode_Model.Room 1 (1, 0, 0)%Q (1, 1, 0)%Q;
  Gcode_Model.Room 2 (1, 1, 0)%Q (0, 0, 0)%Q].
Definition shop3 : workshop := mkWs (1 # 2) 3 three (0, 0, 0)%Q (fun _ _ => false).
Lemma zero_norm : norm (vsub [Q2R 0; Q2R 0; Q2R 0] [0; 0; 0]) < 1 / 100 /\ norm [3 * (0 - 0); 0; 0] < 1 / 100.
Proof.
  rewrite RMicromega.Q2R_0. unfold norm. cbn. split; (match goal with |- sqrt ?e < _ => replace e with 0 by ring end); rewrite sqrt_0; lra.
Qed.
Lemma standing : forall g b1 b, (step g == 1 # 2)%Q -> goal g = (0, 0, 0)%Q -> deg g = 3%nat -> mill_pass g (along [0; 0; 0; 0] true) b1 = Some b ->
  Rltb (norm (vsub (goal_state g) (q_state (last (traj b) no_sample)))) (1 / 100) && Rltb (norm (q_input (last (traj b) no_sample))) (1 / 100) = true.
Proof.
  intros g b1 b S G D E. assert (F : fit g (along [0; 0; 0; 0] true)).
  { destruct (along_fit 0 0 0 0 true) as (A1 & A2 & A3 & A4 & _). repeat split; auto. rewrite S. discriminate. }
  destruct (good_pass _ _ _ _ F eq_refl E) as (t & p & w & sg & r & l & _ & _ & P & _ & ->). cbn [traj]. unfold appended. rewrite app_assoc, last_last.
  replace sg with (hd [] (pieces (along [0; 0; 0; 0] true))) by (rewrite P; reflexivity).
  change (first_time (along [0; 0; 0; 0] true)) with 1%Q. rewrite along_end. cbn [q_state q_input]. unfold goal_state. rewrite G.
  destruct zero_norm as [N1 N2]. unfold Rltb. destruct (Rlt_dec _ _) as [_|H]; [|contradiction]. destruct (Rlt_dec _ _) as [_|H]; [reflexivity|contradiction].
Qed.
Lemma three_numbered : numbered three.
Proof. intros k r E. destruct k as [|[|[|k]]]; cbn in E; [injection E as <-; reflexivity..|destruct k; discriminate]. Qed.
Theorem stops_early : exists g n s guess b0 as_ b, numbered (rooms g) /\ bench0 g n s guess = Some b0 /\ Forall (fit g) as_ /\ all_begin g b0 as_ /\
  mill_run g as_ b0 = Some b /\ n = 2%nat /\ Gcode_Model.n_cur (window b) = 0%nat /\ length (rooms g) = 3%nat.
Proof.
  set (a1 := along [0; 0; 0; 0] true).
  assert (B0 : bench0 shop3 2 [0; 0; 0] 1 = Some (mkBench [mkP [0; 0; 0] [0; 0; 0] [0; 0; 0] [0; 0; 0]] None 0 0 false None
    (Gcode_Model.Sched 0 2 [nth 0 three room0; nth 1 three room0] None) [0; 0; 0] 1 [] ([0; 0; 0], [0; 0; 0], [0; 0; 0]) None None)) by reflexivity.
  match type of B0 with _ = Some ?b => set (b0 := b) in B0 end.
  assert (SI : single shop3 a1) by (eexists; eexists; repeat split).
  destruct (good_easy shop3 a1 b0 SI eq_refl ltac:(intros s; reflexivity) ltac:(discriminate) (or_introl eq_refl) ltac:(discriminate))
    as (b1 & c1 & E1 & R1 & _).
  exists shop3, 2%nat, [0; 0; 0], 1%Q, b0, [a1], b1. split; [exact three_numbered|]. split; [exact B0|]. split.
  { constructor; [|constructor]. destruct (along_fit 0 0 0 0 true) as (A1 & A2 & A3 & A4 & _). repeat split; auto. discriminate. }
  split.
  { intros k a b N G H. destruct k as [|k]; [|destruct k; discriminate]. injection N as <-. injection H as <-.
    intros t p E. injection E as <- <-. apply start_first; auto; apply triple; ring. }
  destruct R1 as (_ & _ & _ & _ & W & _). rewrite W. split; [|auto].
  cbn [mill_run]. rewrite E1. unfold target_reached. rewrite (standing shop3 b0 b1) by (auto; reflexivity). rewrite W. reflexivity.
Qed.

(** with one segment at a time the first block may be passed over: the start is
    already within the second one *)
Definition shop2 : workshop := mkWs (1 # 2) 3 [Gcode_Model.Room 0 (0, 0, 0)%Q (1, 0, 0)%Q; Gcode_Model.Room 1 (1, 0, 0)%Q (0, 0, 0)%Q] (0, 0, 0)%Q (fun _ _ => true).
Definition bench2 : bench := mkBench [mkP [0; 0; 0] [0; 0; 0] [0; 0; 0] [0; 0; 0]] None 0 0 false None
  (Gcode_Model.Sched 0 1 [nth 0 (rooms shop2) room0] (Some (Some (nth 1 (rooms shop2) room0)))) [0; 0; 0] 1 [] ([0; 0; 0], [0; 0; 0], [0; 0; 0]) None None.
Lemma bench2_ok : bench0 shop2 1 [0; 0; 0] 1 = Some bench2.
Proof. reflexivity. Qed.
Lemma shop2_numbered : numbered (rooms shop2).
Proof. intros k r E. destruct k as [|[|k]]; cbn in E; [injection E as <-; reflexivity..|destruct k; discriminate]. Qed.
Lemma bench2_pass : exists b1, mill_pass shop2 (along [0; 0; 0; 0] true) bench2 = Some b1.
Proof.
  set (a1 := along [0; 0; 0; 0] true).
  assert (SI : single shop2 a1) by (eexists; eexists; repeat split).
  destruct (single_store shop2 a1 bench2 SI) as (sg & l & MS & P).
  unfold mill_pass. change (mill_start bench2) with (Some (0%Q, ([0; 0; 0], [0; 0; 0], [0; 0; 0]))). cbn [fst].
  change (mill_window shop2 [0; 0; 0] bench2) with (Some (Gcode_Model.Sched 1 1 [nth 1 (rooms shop2) room0] (Some None))).
  rewrite MS. unfold check_results. change (good a1) with true. cbv iota. eexists. reflexivity.
Qed.
Lemma bench2_run : exists b, mill_run shop2 [along [0; 0; 0; 0] true] bench2 = Some b.
Proof.
  destruct bench2_pass as (b1 & E1). exists b1.
  destruct (pass_window shop2 _ bench2 b1 E1) as (t & p & S0 & W & NU). injection S0 as <- <-. cbn in W. injection W as W.
  cbn [mill_run]. rewrite E1. unfold target_reached. rewrite (standing shop2 bench2 b1) by (auto; reflexivity). rewrite <- W. reflexivity.
Qed.
Theorem first_block_skipped : exists g s guess b0 as_ b, numbered (rooms g) /\ bench0 g 1 s guess = Some b0 /\ Forall (fit g) as_ /\ all_begin g b0 as_ /\
  mill_run g as_ b0 = Some b /\ length (carried as_) = 1%nat /\ length (rooms g) = 2%nat /\ no_update b = false.
Proof.
  destruct bench2_pass as (b1 & E1). destruct bench2_run as (b & R).
  assert (b = b1).
  { cbn [mill_run] in R. rewrite E1 in R. destruct (target_reached shop2 b1); [|discriminate]. congruence. } subst b.
  exists shop2, [0; 0; 0], 1%Q, bench2, [along [0; 0; 0; 0] true], b1. split; [exact shop2_numbered|]. split; [exact bench2_ok|]. split.
  { constructor; [|constructor]. destruct (along_fit 0 0 0 0 true) as (A1 & A2 & A3 & A4 & _). repeat split; auto. discriminate. }
  split.
  { intros k a b N G H. destruct k as [|k]; [|destruct k; discriminate]. injection N as <-. injection H as <-.
    intros t p E. injection E as <- <-. apply start_first; auto; apply triple; ring. }
  destruct (pass_window shop2 _ bench2 b1 E1) as (t & p & S0 & W & NU). split; [exact R|]. auto.
Qed.
