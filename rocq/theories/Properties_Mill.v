(** Machining per segment (C185-C189). *)
From Coq Require Import Reals QArith Qreals ZArith List Arith Lia Lra.
From Verif Require Import Spline_Model Spline_Spec Splop_Spec Vehicle_Model Multi_Model Multi_Spec Concat_Model Concat_Spec Concat_Proofs8 Loop_Model
  Mill_Model Mill_Spec Mill_Proofs Mill_Proofs2 Mill_Proofs3 Mill_Proofs4 Mill_Examples.
From Verif Require Timing_Model Gcode_Model.
Import ListNotations.
Local Open Scope R_scope.

(* the velocity is the derivative of the position, the acceleration that of the velocity and continuous, over all segments *)
Theorem C185_smooth : forall g n s guess b0 as_ b i, bench0 g n s guess = Some b0 -> Forall (fit g) as_ ->
  Forall (fun a => good a = true) as_ -> all_begin g b0 as_ -> mill_passes g as_ b0 = Some b -> (i < 3)%nat ->
  let x := travelled (chain i as_) in
  forall t, 0 < t < Q2R (total_of (time_log b)) ->
  derivable_pt_lim (x 0%nat) t (x 1%nat t) /\ derivable_pt_lim (x 1%nat) t (x 2%nat t) /\ continuity_pt (x 2%nat) t.
Proof. exact motion_smooth. Qed.
Example C185_smooth_ex : exists b, mill_passes shop1 run_ok bench1 = Some b /\
  forall t, 0 < t < Q2R (total_of (time_log b)) -> derivable_pt_lim (travelled (chain 0 run_ok) 1) t (travelled (chain 0 run_ok) 2 t).
Proof.
  destruct run_ok_passes as (b & E & _). destruct run_ok_all as (F & G & _). exists b. split; [exact E|]. intros t Ht.
  apply (C185_smooth shop1 1 [0; 0; 0] 1 bench1 run_ok b 0 bench1_ok F G run_ok_begins E ltac:(lia) t Ht).
Qed.
Print Assumptions C185_smooth.

(* it starts at rest at the given position *)
Theorem C185_start : forall g n s guess b0 a as_ b i, bench0 g n s guess = Some b0 -> Forall (fit g) (a :: as_) ->
  Forall (fun a => good a = true) (a :: as_) -> all_begin g b0 (a :: as_) -> mill_passes g (a :: as_) b0 = Some b -> (i < 3)%nat ->
  let x := travelled (chain i (a :: as_)) in x 0%nat 0 = nth i s 0 /\ x 1%nat 0 = 0 /\ x 2%nat 0 = 0.
Proof. exact motion_start. Qed.
Example C185_start_ex : travelled (chain 0 run_ok) 0 0 = 0.
Proof.
  destruct run_ok_passes as (b & E & _). destruct run_ok_all as (F & G & _).
  apply (C185_start shop1 1 [0; 0; 0] 1 bench1 _ _ b 0 bench1_ok F G run_ok_begins E ltac:(lia)).
Qed.
Print Assumptions C185_start.

(* the end values and the last column are those of the motion at its end *)
Theorem C185_end : forall g n s guess b0 as_ a b i, bench0 g n s guess = Some b0 -> Forall (fit g) (as_ ++ [a]) ->
  Forall (fun a => good a = true) (as_ ++ [a]) -> mill_passes g (as_ ++ [a]) b0 = Some b -> (i < 3)%nat ->
  let x := travelled (chain i (as_ ++ [a])) in let D := Q2R (total_of (time_log b)) in
  exists e, ends b = Some e /\ last (traj b) no_sample = e /\
  nth i (q_state e) 0 = x 0%nat D /\ nth i (q_input e) 0 = x 1%nat D /\ nth i (q_dinput e) 0 = x 2%nat D /\ nth i (q_ddinput e) 0 = x 3%nat D.
Proof. exact motion_end. Qed.
Example C185_end_ex : exists b e, mill_passes shop1 run_ok bench1 = Some b /\ ends b = Some e /\
  nth 0 (q_input e) 0 = travelled (chain 0 run_ok) 1 (Q2R (total_of (time_log b))).
Proof.
  destruct run_ok_passes as (b & E & _). destruct run_ok_all as (F & G & _).
  destruct (C185_end shop1 1 [0; 0; 0] 1 bench1 [along [0; 0; 0; 1] true] (along [1; 2; 4; 7] true) b 0 bench1_ok F G E ltac:(lia)) as (e & A & _ & _ & V & _).
  exists b, e. auto.
Qed.
Print Assumptions C185_end.

(* the log holds the motion times; the clock of a pass is the sum of the earlier ones *)
Theorem C185_times : forall g n s guess b0 as_ a b, bench0 g n s guess = Some b0 -> Forall (fit g) (as_ ++ [a]) ->
  Forall (fun a => good a = true) (as_ ++ [a]) -> mill_passes g (as_ ++ [a]) b0 = Some b ->
  time_log b = map first_time (as_ ++ [a]) /\ (clock b == total_of (map first_time as_))%Q.
Proof. exact motion_times. Qed.
Example C185_times_ex : exists b, mill_passes shop1 run_ok bench1 = Some b /\ time_log b = [1; 1]%Q /\ (clock b == 1)%Q.
Proof.
  destruct run_ok_passes as (b & E & _). destruct run_ok_all as (F & G & _). exists b. split; [exact E|].
  exact (C185_times shop1 1 [0; 0; 0] 1 bench1 [along [0; 0; 0; 1] true] (along [1; 2; 4; 7] true) b bench1_ok F G E).
Qed.
Print Assumptions C185_times.

(* the jerk is not continuous from one segment to the next *)
Theorem C185_jerk_refuted : exists g n s guess b0 as_ b, bench0 g n s guess = Some b0 /\ Forall (fit g) as_ /\ Forall (fun a => good a = true) as_ /\
  all_begin g b0 as_ /\ mill_passes g as_ b0 = Some b /\ ~ agrees 3 (chain 0 as_).
Proof. exact jerk_jumps. Qed.
Print Assumptions C185_jerk_refuted.

(* every recorded column holds position, velocity and acceleration of the motion at its time *)
Theorem C186_columns : forall g n s guess b0 as_ b, bench0 g n s guess = Some b0 -> (0 < step g)%Q -> deg g = 3%nat -> length s = 3%nat ->
  Forall (fit g) as_ -> Forall (fun a => good a = true) as_ -> Forall connected as_ -> Forall (within g) as_ -> as_ <> [] ->
  all_begin g b0 as_ -> mill_passes g as_ b0 = Some b -> Forall2 (holds as_) (0 :: stamps g 0 as_) (traj b).
Proof. exact motion_columns. Qed.
Example C186_columns_ex : exists b, mill_passes shop1 run_ok bench1 = Some b /\ Forall2 (holds run_ok) (0 :: stamps shop1 0 run_ok) (traj b).
Proof.
  destruct run_ok_passes as (b & E & _). destruct run_ok_all as (F & G & C & W). exists b. split; [exact E|].
  apply (C186_columns shop1 1 [0; 0; 0] 1 bench1 run_ok b bench1_ok); auto using run_ok_begins; try reflexivity; discriminate.
Qed.
Print Assumptions C186_columns.

(* so do the rows that are saved *)
Theorem C186_rows : forall g n s guess b0 as_ b, bench0 g n s guess = Some b0 -> (0 < step g)%Q -> deg g = 3%nat -> length s = 3%nat ->
  Forall (fit g) as_ -> Forall (fun a => good a = true) as_ -> Forall connected as_ -> Forall (within g) as_ -> as_ <> [] ->
  all_begin g b0 as_ -> mill_passes g as_ b0 = Some b ->
  saved_rows (traj b) = map (fun t => flat_map (fun i => [travelled (chain i as_) 0 t; travelled (chain i as_) 1 t; travelled (chain i as_) 2 t]) [0; 1; 2]%nat)
    (0 :: stamps g 0 as_).
Proof. exact motion_rows. Qed.
Example C186_rows_ex : exists b, mill_passes shop1 run_ok bench1 = Some b /\ length (saved_rows (traj b)) = 7%nat.
Proof.
  destruct run_ok_passes as (b & E & _). destruct run_ok_all as (F & G & C & W). exists b. split; [exact E|].
  rewrite (C186_rows shop1 1 [0; 0; 0] 1 bench1 run_ok b bench1_ok); auto using run_ok_begins; try reflexivity; discriminate.
Qed.
Print Assumptions C186_rows.

(* a segment of a whole number of samples records its end twice, and the columns are not drawn at their times *)
Theorem C186_twice_refuted : exists g as_ t u l, (0 < step g)%Q /\ Forall (fit g) as_ /\ Forall (within g) as_ /\ Forall connected as_ /\
  (exists n s guess b0 b, bench0 g n s guess = Some b0 /\ all_begin g b0 as_ /\ mill_passes g as_ b0 = Some b /\
     clock b = t /\ motion0 b = u /\ traj b = l) /\
  nth 2 (0 :: stamps g 0 as_) 0 = nth 3 (0 :: stamps g 0 as_) 0 /\ (2 < length (stamps g 0 as_))%nat /\
  Q2R (nth 1 (drawn_times t u l) 0%Q) <> nth 1 (0 :: stamps g 0 as_) 0.
Proof. exact end_twice. Qed.
Print Assumptions C186_twice_refuted.

(* results shorter than a sample are dropped: the end values come from old splines *)
Theorem C186_short : forall g a b b' s0 rest l, too_short g a = true -> kept b = Some (s0 :: rest) -> plan b = Some l -> good a = true ->
  mill_pass g a b = Some b' -> ends b' = Some (end_values s0 (Q2R (first_time a))) /\ kept b' = kept b.
Proof. exact short_result. Qed.
Example C186_short_ex : exists b b', mill_passes shop1 run_ok bench1 = Some b /\ mill_pass shop1 (mkR [] [1 # 4]%Q true) b = Some b' /\
  too_short shop1 (mkR [] [1 # 4]%Q true) = true /\ kept b' = kept b.
Proof.
  destruct run_ok_passes as (b & E & W & NU). exists b.
  unfold run_ok in E. change [along [0; 0; 0; 1] true; along [1; 2; 4; 7] true] with ([along [0; 0; 0; 1] true] ++ [along [1; 2; 4; 7] true]) in E.
  pose proof E as E'. rewrite passes_snoc in E. destruct (mill_passes shop1 [along [0; 0; 0; 1] true] bench1) as [b1|]; [|discriminate].
  destruct (good_pass _ _ _ _ (along_fit 1 2 4 7 true) eq_refl E) as (t & p & w & sg & r & l & _ & _ & P & _ & EB).
  assert (exists b', mill_pass shop1 (mkR [] [1 # 4]%Q true) b = Some b') as (b' & E2).
  { unfold mill_pass, mill_start. rewrite EB. cbn [kept ends clock motion0]. cbv iota.
    rewrite stays_window by (cbn [window]; rewrite EB in W; cbn [window] in W; rewrite W; exact shop1_stays).
    unfold mill_store. change (too_short shop1 (mkR [] [1 # 4]%Q true)) with true. cbn [kept plan]. rewrite P. eexists. reflexivity. }
  exists b'. split; [exact E'|]. split; [exact E2|]. split; [reflexivity|].
  apply (C186_short shop1 (mkR [] [1 # 4]%Q true) b b' sg r l); auto; rewrite EB; cbn [kept plan]; congruence.
Qed.
Print Assumptions C186_short.

(* a failed segment is taken back: positions, accelerations and the log are as before, only the last input is changed *)
Theorem C187_rejected : forall g a b b', good a = false -> mill_pass g a b = Some b' ->
  exists r c1 c2 e0 e t p c, traj b = r ++ [c1; c2] /\
    traj b' = r ++ [c1; mkP (q_state c2) (perturbed (q_input c1) (q_input c2)) (q_dinput c2) (q_ddinput c2)] /\
    ends b = Some e0 /\ ends b' = Some e /\
    q_state e = q_state e0 /\ q_dinput e = q_dinput e0 /\ q_ddinput e = q_ddinput e0 /\
    time_log b' = time_log b /\ no_update b' = true /\ cnt b = Some c /\ cnt b' = Some (S c) /\ (c < 20)%nat /\
    mill_start b = Some (t, p) /\ clock b' = t /\
    kept b' <> None /\ motion0 b' = first_time a /\
    (exists w, mill_window g (fst (fst p)) b = Some w /\ window b' = w) /\
    exists s0 rest l, mill_store g a b = Some (Some (s0 :: rest), Some l) /\ q_input e = q_input (end_values s0 (Q2R (first_time a))).
Proof. exact rejected. Qed.
Example C187_rejected_ex : exists a b b', good a = false /\ mill_pass shop1 a b = Some b' /\ time_log b' = time_log b.
Proof.
  destruct (good_easy shop1 (along [0; 0; 0; 0] true) bench1 (along_single _ _ _ _ _) eq_refl shop1_stays ltac:(discriminate) (or_introl eq_refl) ltac:(discriminate))
    as (b1 & c1 & E1 & R1 & C0). cbn in C0. subst c1.
  destruct (bad_easy shop1 (along [0; 1/3; 2/3; 1] false) b1 _ 0 false (along_single _ _ _ _ _) eq_refl shop1_stays R1 ltac:(lia)) as (b2 & E2 & R2).
  exists (along [0; 1/3; 2/3; 1] false), b1, b2. split; [reflexivity|]. split; [exact E2|].
  destruct (C187_rejected shop1 (along [0; 1/3; 2/3; 1] false) b1 b2 eq_refl E2) as
    (r & d1 & d2 & e0 & e & t' & p' & c & _ & _ & _ & _ & _ & _ & _ & L & _). exact L.
Qed.
Print Assumptions C187_rejected.

(* the retry starts from the same position and acceleration with the same segments; the time is not set back *)
Theorem C187_retried : forall g a b b' t p, good a = false -> mill_pass g a b = Some b' -> kept b <> None -> mill_start b = Some (t, p) ->
  exists u, mill_start b' = Some ((t + first_time a)%Q, (fst (fst p), u, snd p)) /\
  (forall s w, mill_window g s b' = Some w -> w = window b').
Proof. exact retried. Qed.
Example C187_retried_ex : exists a b b' t p u, good a = false /\ mill_pass shop1 a b = Some b' /\ mill_start b = Some (t, p) /\
  mill_start b' = Some ((t + 1)%Q, (fst (fst p), u, snd p)).
Proof.
  destruct (good_easy shop1 (along [0; 0; 0; 0] true) bench1 (along_single _ _ _ _ _) eq_refl shop1_stays ltac:(discriminate) (or_introl eq_refl) ltac:(discriminate))
    as (b1 & c1 & E1 & R1 & C0). cbn in C0. subst c1.
  destruct (bad_easy shop1 (along [0; 1/3; 2/3; 1] false) b1 _ 0 false (along_single _ _ _ _ _) eq_refl shop1_stays R1 ltac:(lia)) as (b2 & E2 & R2).
  destruct (good_next _ _ _ _ _ _ E1) as (t1 & S1).
  destruct (C187_retried shop1 (along [0; 1/3; 2/3; 1] false) b1 b2 _ _ eq_refl E2 ltac:(apply R1) S1) as (u & S2 & _).
  exists (along [0; 1/3; 2/3; 1] false), b1, b2, t1, ([0; 0; 0], [3 * (0 - 0); 0; 0], [6 * (0 - 2 * 0 + 0); 0; 0]), u. auto.
Qed.
Print Assumptions C187_retried.

(* over all failures the positions and accelerations of the segments that are carried out fit together, and the log holds their times *)
Theorem C187_positions : forall g n s guess b0 as_ b i d, bench0 g n s guess = Some b0 -> Forall (fun a => good a = true -> fit g a) as_ ->
  all_begin g b0 as_ -> mill_passes g as_ b0 = Some b -> (i < 3)%nat -> d = 0%nat \/ d = 2%nat ->
  agrees d (chain i (carried as_)) /\ time_log b = map first_time (carried as_).
Proof. exact motion_positions. Qed.
Example C187_positions_ex : exists b, mill_passes shop1 run_ok bench1 = Some b /\ agrees 2 (chain 0 (carried run_ok)).
Proof.
  destruct run_ok_passes as (b & E & _). exists b. split; [exact E|].
  refine (proj1 (C187_positions shop1 1 [0; 0; 0] 1 bench1 run_ok b 0 2 bench1_ok _ run_ok_begins E _ _)); [|lia|auto].
  apply Forall_cons; [|apply Forall_cons; [|apply Forall_nil]]; intros _; apply along_fit.
Qed.
Print Assumptions C187_positions.

(* the speeds do not fit together, and the clock runs ahead of the log *)
Theorem C187_speed_refuted : exists g n s guess b0 as_ b, bench0 g n s guess = Some b0 /\ Forall (fit g) as_ /\ all_begin g b0 as_ /\
  mill_passes g as_ b0 = Some b /\ ~ agrees 1 (chain 0 (carried as_)) /\
  ~ (clock b + motion0 b == total_of (time_log b))%Q.
Proof. exact speed_jumps. Qed.
Print Assumptions C187_speed_refuted.

(* the changed input lies on the line through the last two, beyond the last; upwards it is zero *)
Theorem C187_line : forall x1 y1 z1 x2 y2 z2, finite_line [x1; y1; z1] [x2; y2; z2] = true -> 1 / 1000 < Rabs (y2 - y1) ->
  perturbed [x1; y1; z1] [x2; y2; z2] = [x2 + (x2 - x1) * (1 / 100); y2 + (y2 - y1) * (1 / 100); 0].
Proof. exact perturbed_line. Qed.
Example C187_line_ex : perturbed [0; 0; 1] [1; 1; 1] = [1 + (1 - 0) * (1 / 100); 1 + (1 - 0) * (1 / 100); 0].
Proof.
  apply C187_line.
  - unfold finite_line, Reqb. cbn [nth]. destruct (Req_EM_T (1 - 0) 0) as [H|_]; [lra|]. rewrite Bool.andb_false_r. reflexivity.
  - rewrite Rminus_0_r, Rabs_R1. lra.
Qed.
Print Assumptions C187_line.

(* unless the second coordinates are almost the same *)
Theorem C187_flat : forall x1 y1 z1 x2 y2 z2, Rabs (y2 - y1) <= 1 / 1000 ->
  perturbed [x1; y1; z1] [x2; y2; z2] = [x2 + (x2 - x1) * (1 / 100); y1; 0].
Proof. exact perturbed_flat. Qed.
Example C187_flat_ex : perturbed [0; 2; 1] [1; 2; 1] = [1 + (1 - 0) * (1 / 100); 2; 0].
Proof. apply C187_flat. replace (2 - 2) with 0 by ring. rewrite Rabs_R0. lra. Qed.
Print Assumptions C187_flat.

(* for two inputs above each other it divides by zero *)
Theorem C187_line_refuted : finite_line [0; 0; 0] [0; 1; 0] = false.
Proof. exact vertical_line. Qed.
Print Assumptions C187_line_refuted.

(* a failure in the very first pass raises *)
Theorem C188_first : forall g n s guess b0 a, bench0 g n s guess = Some b0 -> good a = false -> mill_pass g a b0 = None.
Proof. exact first_failure. Qed.
Example C188_first_ex : mill_pass shop1 (along [0; 0; 0; 0] false) bench1 = None.
Proof. exact (C188_first shop1 1 [0; 0; 0] 1 bench1 (along [0; 0; 0; 0] false) bench1_ok eq_refl). Qed.
Print Assumptions C188_first.

(* more than 20 failures in a row raise *)
Theorem C188_many : forall g as_ b, Forall (fun a => good a = false) as_ -> (20 < length as_)%nat -> mill_passes g as_ b = None.
Proof. exact too_many_failures. Qed.
Example C188_many_ex : mill_passes shop1 (repeat (along [0; 0; 0; 0] false) 21) bench1 = None.
Proof. apply C188_many; [|cbn; lia]. apply Forall_forall. intros a I. apply repeat_spec in I. subst a. reflexivity. Qed.
Print Assumptions C188_many.

(* up to 20 are counted *)
Theorem C188_counted : forall g as_ b b', Forall (fun a => good a = false) as_ -> mill_passes g as_ b = Some b' -> as_ <> [] ->
  exists c, cnt b = Some c /\ cnt b' = Some (c + length as_)%nat /\ (c + length as_ <= 20)%nat.
Proof. exact failures_counted. Qed.
Example C188_counted_ex : exists b b', mill_passes shop1 [along [0; 1/3; 2/3; 1] false] b = Some b' /\ exists c, cnt b = Some c /\ cnt b' = Some (c + 1)%nat.
Proof.
  destruct (good_easy shop1 (along [0; 0; 0; 0] true) bench1 (along_single _ _ _ _ _) eq_refl shop1_stays ltac:(discriminate) (or_introl eq_refl) ltac:(discriminate))
    as (b1 & c1 & E1 & R1 & C0). cbn in C0. subst c1.
  destruct (bad_easy shop1 (along [0; 1/3; 2/3; 1] false) b1 _ 0 false (along_single _ _ _ _ _) eq_refl shop1_stays R1 ltac:(lia)) as (b2 & E2 & R2).
  exists b1, b2. assert (E : mill_passes shop1 [along [0; 1/3; 2/3; 1] false] b1 = Some b2) by (cbn [mill_passes]; rewrite E2; reflexivity).
  split; [exact E|]. destruct (C188_counted shop1 [along [0; 1/3; 2/3; 1] false] b1 b2) as (c & A & B & _); [apply Forall_cons; [reflexivity|apply Forall_nil]|exact E|discriminate|exists c; auto].
Qed.
Print Assumptions C188_counted.

(* the count never passes 20 *)
Theorem C188_limit : forall g n s guess b0 as_ b, bench0 g n s guess = Some b0 -> mill_passes g as_ b0 = Some b ->
  forall c, cnt b = Some c -> (c <= 20)%nat.
Proof. exact count_limit. Qed.
Example C188_limit_ex : exists b, mill_passes shop1 run_ok bench1 = Some b /\ forall c, cnt b = Some c -> (c <= 20)%nat.
Proof.
  destruct run_ok_passes as (b & E & _). exists b. split; [exact E|]. apply (C188_limit shop1 1 [0; 0; 0] 1 bench1 run_ok b bench1_ok E).
Qed.
Print Assumptions C188_limit.

(* it starts again with a segment that is solved at once *)
Theorem C188_restart : forall g a b b', good a = true -> no_update b = false -> mill_pass g a b = Some b' -> cnt b' = Some 0%nat /\ no_update b' = false.
Proof. exact count_restarts. Qed.
Example C188_restart_ex : exists b', mill_pass shop1 (along [0; 0; 0; 1] true) bench1 = Some b' /\ cnt b' = Some 0%nat.
Proof.
  destruct (good_easy shop1 (along [0; 0; 0; 1] true) bench1 (along_single _ _ _ _ _) eq_refl shop1_stays ltac:(discriminate) (or_introl eq_refl) ltac:(discriminate))
    as (b1 & c1 & E1 & _). exists b1. split; [exact E1|]. apply (C188_restart shop1 (along [0; 0; 0; 1] true) bench1 b1 eq_refl eq_refl E1).
Qed.
Print Assumptions C188_restart.

(* but not with a successful retry: after 20 failures and a success one more failure raises *)
Theorem C188_survives_refuted : exists g n s guess b0 ok bad b, bench0 g n s guess = Some b0 /\ good ok = true /\ good bad = false /\
  mill_passes g (ok :: repeat bad 20 ++ [ok]) b0 = Some b /\ no_update b = false /\ mill_pass g bad b = None.
Proof. exact count_survives. Qed.
Print Assumptions C188_survives_refuted.

(* a run with one segment at a time ends close to the goal, almost at rest, in the last block *)
Theorem C189_end : forall g s guess b0 as_ b, numbered (rooms g) -> bench0 g 1 s guess = Some b0 -> mill_run g as_ b0 = Some b ->
  norm (vsub (goal_state g) (q_state (last (traj b) no_sample))) < 1 / 100 /\ norm (q_input (last (traj b) no_sample)) < 1 / 100 /\
  exists r, Gcode_Model.segs (window b) = [r] /\ last (map Some (rooms g)) None = Some r /\
  exists used left, as_ = used ++ left /\ mill_passes g used b0 = Some b /\ (length (rooms g) <= S (length (carried used)) + (if no_update b then 1 else 0))%nat.
Proof. exact run_end. Qed.
Example C189_end_ex : exists b, mill_run shop2 [along [0; 0; 0; 0] true] bench2 = Some b /\ exists r, Gcode_Model.segs (window b) = [r] /\ Gcode_Model.rnumber r = 1%nat.
Proof.
  destruct bench2_run as (b & E). exists b. split; [exact E|].
  destruct (C189_end shop2 [0; 0; 0] 1 bench2 _ b shop2_numbered bench2_ok E) as (_ & _ & r & S1 & L & _). exists r. split; [exact S1|].
  cbn in L. injection L as <-. reflexivity.
Qed.
Print Assumptions C189_end.

(* every segment that is carried out moves on by one block at most *)
Theorem C189_progress : forall g n s guess b0 as_ b, bench0 g n s guess = Some b0 -> mill_passes g as_ b0 = Some b ->
  (Gcode_Model.n_cur (window b) <= length (carried as_) + (if no_update b then 1 else 0))%nat.
Proof. exact block_progress. Qed.
Example C189_progress_ex : exists b, mill_passes shop1 run_ok bench1 = Some b /\ (Gcode_Model.n_cur (window b) <= 2)%nat.
Proof.
  destruct run_ok_passes as (b & E & W & NU). exists b. split; [exact E|].
  pose proof (C189_progress shop1 1 [0; 0; 0] 1 bench1 run_ok b bench1_ok E) as H. rewrite NU in H. cbn in H. lia.
Qed.
Print Assumptions C189_progress.

(* with two segments at a time it may stop in the first block of three *)
Theorem C189_early_refuted : exists g n s guess b0 as_ b, numbered (rooms g) /\ bench0 g n s guess = Some b0 /\ Forall (fit g) as_ /\ all_begin g b0 as_ /\
  mill_run g as_ b0 = Some b /\ n = 2%nat /\ Gcode_Model.n_cur (window b) = 0%nat /\ length (rooms g) = 3%nat.
Proof. exact stops_early. Qed.
Print Assumptions C189_early_refuted.

(* with one segment at a time it may pass over the first block *)
Theorem C189_skip_refuted : exists g s guess b0 as_ b, numbered (rooms g) /\ bench0 g 1 s guess = Some b0 /\ Forall (fit g) as_ /\ all_begin g b0 as_ /\
  mill_run g as_ b0 = Some b /\ length (carried as_) = 1%nat /\ length (rooms g) = 2%nat /\ no_update b = false.
Proof. exact first_block_skipped. Qed.
Print Assumptions C189_skip_refuted.
