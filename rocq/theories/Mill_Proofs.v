(** The passes of a machining run and the motion that they add up to. *)
From Coq Require Import Reals QArith Qreals ZArith Lra Lia List Arith Bool.
From Coq Require Lqa.
From Verif Require Import Spline_Model Spline_Spec Splop_Spec Spline_Proofs Multi_Model Multi_Spec Multi_Proofs Concat_Model Concat_Spec
  Concat_Proofs Concat_Proofs4 Loop_Model Loop_Proofs2 Mill_Model Mill_Spec.
From Verif Require Timing_Model Grid_Model Gcode_Model Free_Proofs.
Import ListNotations.
Local Open Scope R_scope.

(** ** one pass *)
Lemma passes_snoc : forall g as_ a b, mill_passes g (as_ ++ [a]) b =
  match mill_passes g as_ b with None => None | Some b' => mill_pass g a b' end.
Proof.
  intros g as_ a. induction as_ as [|x r IH]; intros b; cbn [app mill_passes].
  - destruct (mill_pass g a b); reflexivity.
  - destruct (mill_pass g x b); [apply IH|reflexivity].
Qed.
Lemma passes_app : forall g as_ bs b, mill_passes g (as_ ++ bs) b =
  match mill_passes g as_ b with None => None | Some b' => mill_passes g bs b' end.
Proof.
  intros g as_ bs. induction as_ as [|x r IH]; intros b; cbn [app mill_passes]; [reflexivity|].
  destruct (mill_pass g x b); [apply IH|reflexivity].
Qed.

(** what is stored: the new answer, or the old one if the motion is shorter
    than a sample *)
Lemma pass_inv : forall g a b b', mill_pass g a b = Some b' ->
  exists t p w s0 rest l, mill_start b = Some (t, p) /\ mill_window g (fst (fst p)) b = Some w /\
    mill_store g a b = Some (Some (s0 :: rest), Some l) /\
    let T := first_time a in let e := end_values s0 (Q2R T) in
    check_results a (traj b) (ends b)
      (mkBench (traj b ++ appended g T l e) (Some e) t
               (match kept b with None => t | Some _ => (t + T)%Q end)
               (no_update b) (cnt b) w (fst (fst p)) T (time_log b ++ [T]) p (Some (s0 :: rest)) (Some l)) = Some b'.
Proof.
  intros g a b b' E. unfold mill_pass in E.
  destruct (mill_start b) as [[t p]|] eqn:S0; [|discriminate].
  destruct (mill_window g (fst (fst p)) b) as [w|] eqn:W; [|discriminate].
  destruct (mill_store g a b) as [[[sg|] [l|]]|] eqn:ST; try discriminate.
  destruct sg as [|s0 rest]; [discriminate|].
  exists t, p, w, s0, rest, l. auto.
Qed.
Lemma fit_long : forall g a, fit g a -> too_short g a = false.
Proof. intros g a (_ & _ & _ & _ & F). unfold too_short. apply Free_Proofs.ltb_false. exact F. Qed.
Lemma fit_store : forall g a b sg l, fit g a -> mill_store g a b = Some (Some sg, Some l) ->
  sg = pieces a /\ mill_samples g a = Some l.
Proof.
  intros g a b sg l F E. unfold mill_store in E. rewrite (fit_long g a F) in E.
  destruct (mill_samples g a) as [p|]; [|discriminate]. injection E as <- <-. auto.
Qed.
Lemma fit_time : forall g a, fit g a -> (0 < first_time a)%Q /\ 0 < Q2R (first_time a).
Proof.
  intros g a (_ & L & N & F & _). unfold first_time. destruct (times a) as [|T r].
  - cbn in N. lia.
  - inversion F; subst. cbn [hd]. split; [assumption|]. apply Q2R_pos. assumption.
Qed.
Lemma fit_leg : forall g a i, fit g a -> (i < 3)%nat -> regular_spline 3 (fst (leg i a)) /\ 0 < snd (leg i a).
Proof.
  intros g a i F Hi. split; [|apply (fit_time g a F)].
  destruct F as (RS & L & _). cbn [leg fst]. destruct (pieces a) as [|sg r]; [cbn in L; lia|].
  inversion RS as [|? ? [N A] ?]; subst. cbn [hd]. apply (regular_nth 3 3); auto.
Qed.

(** the end values of the first segment *)
Lemma end_length : forall sg T, length (q_state (end_values sg T)) = length sg /\ length (q_input (end_values sg T)) = length sg /\
  length (q_dinput (end_values sg T)) = length sg /\ length (q_ddinput (end_values sg T)) = length sg.
Proof. intros. unfold end_values; cbn [q_state q_input q_dinput q_ddinput]. rewrite !map_length. auto. Qed.
Lemma end_nth : forall sg T i, (i < length sg)%nat -> 0 < T ->
  nth i (q_state (end_values sg T)) 0 = in_seconds (nth i sg no_spline) T 0 T /\
  nth i (q_input (end_values sg T)) 0 = in_seconds (nth i sg no_spline) T 1 T /\
  nth i (q_dinput (end_values sg T)) 0 = in_seconds (nth i sg no_spline) T 2 T /\
  nth i (q_ddinput (end_values sg T)) 0 = in_seconds (nth i sg no_spline) T 3 T.
Proof.
  intros sg T i Hi HT. unfold end_values; cbn [q_state q_input q_dinput q_ddinput].
  rewrite !(nth_map_in _ sg i 0 no_spline) by exact Hi.
  assert (E : T / T = 1) by (field; lra).
  unfold in_seconds. rewrite E. change (derivative (nth i sg no_spline) 0) with (nth i sg no_spline).
  repeat split; unfold Rdiv; try rewrite pow_1; try rewrite !Rmult_1_r; try reflexivity.
  cbn [pow]. rewrite Rinv_1. ring.
Qed.
Lemma fit_first : forall g a, fit g a -> exists sg r, pieces a = sg :: r /\ length sg = 3%nat /\ Forall (regular_spline 3) sg.
Proof.
  intros g a (RS & L & _). destruct (pieces a) as [|sg r]; [cbn in L; lia|].
  inversion RS as [|? ? [N A] ?]; subst. exists sg, r. auto.
Qed.

(** ** the initial constraints *)
Lemma init_zero : forall p s T d v, regular_spline p s -> (d <= p)%nat -> 0 < T ->
  evalspline (derivative s d) (0 / T) - T ^ d * v = 0 -> in_seconds s T d 0 = v.
Proof.
  intros p s T d v RS D HT E.
  assert (V := travelled_start p s T [] d v 0 RS D HT ltac:(lra)).
  cbn [travelled] in V. apply V.
  cbn [init_values map fst snd]. f_equal. rewrite Rmult_comm. exact E.
Qed.
Lemma begins_values : forall s u du sg T, Forall (fun v => v = 0) (tool_init (s, u, du) sg T) ->
  length sg = 3%nat -> Forall (regular_spline 3) sg -> 0 < T -> forall i, (i < 3)%nat ->
  in_seconds (nth i sg no_spline) T 0 0 = nth i s 0 /\ in_seconds (nth i sg no_spline) T 1 0 = nth i u 0 /\
  in_seconds (nth i sg no_spline) T 2 0 = nth i du 0.
Proof.
  intros s u du sg T F N A HT i Hi.
  assert (RS : regular_spline 3 (nth i sg no_spline)) by (apply (regular_nth 3 3); auto).
  change (mkS (mkB [] 0) []) with no_spline in F. unfold tool_init, init_values in F.
  change (mkS (mkB [] 0) []) with no_spline in F.
  rewrite Forall_forall in F.
  assert (G : forall d v, (d = 0 /\ v = s \/ d = 1 /\ v = u \/ d = 2 /\ v = du)%nat ->
     evalspline (derivative (nth i sg no_spline) d) (0 / T) - T ^ d * nth i v 0 = 0).
  { intros d v H. apply F. apply in_map_iff. exists (derivative (nth i sg no_spline) d, T ^ d * nth i v 0). split; [reflexivity|].
    assert (K : In i [0; 1; 2]%nat) by (cbn; lia).
    rewrite !in_app_iff. destruct H as [[-> ->]|[[-> ->]|[-> ->]]]; [left|right; left|right; right];
      apply in_map_iff; exists i; split; auto. }
  repeat split; apply (init_zero 3); auto; try lia; apply G; auto.
Qed.

(** ** runs in which the solver always succeeds *)
Definition follows (as_ : list result) (s0 : list R) (b : bench) : Prop :=
  match rev as_ with
  | [] => kept b = None /\ curr b = s0 /\ ends b = None
  | a :: _ => exists sg r, pieces a = sg :: r /\ kept b = Some (pieces a) /\ ends b = Some (end_values sg (Q2R (first_time a))) /\
                           motion0 b = first_time a
  end.

Lemma good_pass : forall g a b b', fit g a -> good a = true -> mill_pass g a b = Some b' ->
  exists t p w sg r l, mill_start b = Some (t, p) /\ mill_window g (fst (fst p)) b = Some w /\
    pieces a = sg :: r /\ mill_samples g a = Some l /\
    b' = mkBench (traj b ++ appended g (first_time a) l (end_values sg (Q2R (first_time a))))
           (Some (end_values sg (Q2R (first_time a)))) t
           (match kept b with None => t | Some _ => (t + first_time a)%Q end)
           false (if no_update b then cnt b else Some 0%nat) w (fst (fst p)) (first_time a)
           (time_log b ++ [first_time a]) p (Some (pieces a)) (Some l).
Proof.
  intros g a b b' F G E. destruct (pass_inv g a b b' E) as (t & p & w & sg & r & l & E1 & E2 & E3 & E4).
  destruct (fit_store g a b _ _ F E3) as [P L]. exists t, p, w, sg, r, l.
  repeat split; auto. cbn zeta in E4. unfold check_results in E4. rewrite G in E4.
  cbn [traj ends clock dep_clock no_update cnt window curr motion0 time_log pred kept plan] in E4.
  rewrite <- P. injection E4 as <-. reflexivity.
Qed.

Lemma follows_pass : forall g as_ a s0 b b', fit g a -> good a = true -> mill_pass g a b = Some b' ->
  follows (as_ ++ [a]) s0 b'.
Proof.
  intros g as_ a s0 b b' F G E. unfold follows. rewrite rev_app_distr. cbn [rev app].
  destruct (good_pass g a b b' F G E) as (t & p & w & sg & r & l & _ & _ & P & _ & ->).
  exists sg, r. cbn [kept ends motion0]. auto.
Qed.
Lemma follows_any : forall g as_ s0 b0 b, Forall (fit g) as_ -> Forall (fun a => good a = true) as_ ->
  follows [] s0 b0 -> mill_passes g as_ b0 = Some b -> follows as_ s0 b.
Proof.
  intros g as_ s0 b0 b. revert b. induction as_ as [|a as_ _] using rev_ind; intros b F G F0 E.
  - injection E as <-. exact F0.
  - rewrite passes_snoc in E. destruct (mill_passes g as_ b0) as [b1|]; [|discriminate].
    apply Forall_app in F. apply Forall_app in G. destruct F as [_ F]. destruct G as [_ G].
    inversion F; inversion G; subst. apply (follows_pass g as_ a s0 b1 b); auto.
Qed.

Lemma bench0_follows : forall g n s guess b0, bench0 g n s guess = Some b0 ->
  follows [] s b0 /\ time_log b0 = [] /\ traj b0 = [mkP s [0; 0; 0] [0; 0; 0] [0; 0; 0]] /\ clock b0 = 0%Q /\ no_update b0 = false /\
  cnt b0 = None.
Proof.
  intros g n s guess b0 E. unfold bench0 in E. destruct (Gcode_Model.reinitialize (rooms g) n) as [w|]; [|discriminate].
  injection E as <-. unfold follows. cbn. auto 10.
Qed.

Lemma chain_snoc : forall i as_ a, chain i (as_ ++ [a]) = chain i as_ ++ [leg i a].
Proof. intros. unfold chain. rewrite map_app. reflexivity. Qed.
Lemma chain_good : forall g as_ i, Forall (fit g) as_ -> (i < 3)%nat -> good_segs 3 (chain i as_).
Proof.
  intros g as_ i F Hi. unfold good_segs, chain. induction F as [|a r Fa Fr IH]; cbn [map]; constructor; [|exact IH].
  destruct (fit_leg g a i Fa Hi). split; assumption.
Qed.
Lemma meets_snoc : forall n l q1 q, meets n (l ++ [q1]) ->
  (forall d, (d < n)%nat -> in_seconds (fst q1) (snd q1) d (snd q1) = in_seconds (fst q) (snd q) d 0) ->
  meets n ((l ++ [q1]) ++ [q]).
Proof.
  intros n l q1 q. induction l as [|[s T] l IH]; intros M C.
  - destruct q1 as [s1 T1]; destruct q as [s2 T2]. cbn. split; [exact C|exact I].
  - cbn [app] in *. destruct l as [|[s' T'] l'].
    + cbn [app] in *. destruct q1 as [s1 T1]; destruct q as [s2 T2]. cbn [meets] in *. destruct M as [M1 _].
      split; [exact M1|]. split; [exact C|exact I].
    + cbn [app] in *. destruct M as [M1 M2]. split; [exact M1|]. apply IH; assumption.
Qed.

(** the start of a pass is the end of the pass before *)
Lemma start_values : forall g as_ a s0 b t s u du, follows (as_ ++ [a]) s0 b -> fit g a ->
  mill_start b = Some (t, (s, u, du)) -> forall i, (i < 3)%nat ->
  nth i s 0 = in_seconds (fst (leg i a)) (snd (leg i a)) 0 (snd (leg i a)) /\
  nth i u 0 = in_seconds (fst (leg i a)) (snd (leg i a)) 1 (snd (leg i a)) /\
  nth i du 0 = in_seconds (fst (leg i a)) (snd (leg i a)) 2 (snd (leg i a)) /\
  t = (clock b + first_time a)%Q.
Proof.
  intros g as_ a s0 b t s u du FO F E i Hi. unfold follows in FO. rewrite rev_app_distr in FO. cbn [rev app] in FO.
  destruct FO as (sg & r & P & K & EN & M0). unfold mill_start in E. rewrite K, EN, M0 in E.
  injection E as <- <- <- <-.
  destruct (fit_first g a F) as (sg' & r' & P' & N & _). rewrite P in P'. injection P' as <- <-.
  destruct (end_nth sg (Q2R (first_time a)) i ltac:(lia) (proj2 (fit_time g a F))) as (A & B & C & _).
  unfold leg. rewrite P. cbn [hd fst snd]. auto.
Qed.

Theorem mill_meets : forall g s0 b0 as_ b i, Forall (fit g) as_ -> Forall (fun a => good a = true) as_ ->
  follows [] s0 b0 -> all_begin g b0 as_ -> mill_passes g as_ b0 = Some b -> (i < 3)%nat -> meets 3 (chain i as_).
Proof.
  intros g s0 b0 as_. induction as_ as [|a as_ IH] using rev_ind; intros b i F G F0 B E Hi; [exact I|].
  rewrite passes_snoc in E. destruct (mill_passes g as_ b0) as [b1|] eqn:E1; [|discriminate].
  apply Forall_app in F. apply Forall_app in G. destruct F as [F Fa]. destruct G as [G Ga].
  inversion Fa as [|? ? FA _]; inversion Ga as [|? ? GA _]; subst.
  assert (M : meets 3 (chain i as_)).
  { apply (IH b1 i F G F0); auto. intros k a' b' N. assert (k < length as_)%nat by (apply nth_error_Some; congruence).
    assert (N' : nth_error (as_ ++ [a]) k = Some a') by (rewrite nth_error_app1 by lia; exact N).
    intros G' P. apply (B k a' b' N' G'). rewrite firstn_app. replace (k - length as_)%nat with 0%nat by lia.
    cbn [firstn]. rewrite app_nil_r. exact P. }
  assert (BA : begins b1 a).
  { apply (B (length as_) a b1); auto.
    - rewrite nth_error_app2, Nat.sub_diag by lia. reflexivity.
    - rewrite firstn_app, Nat.sub_diag, firstn_all. cbn [firstn]. rewrite app_nil_r. exact E1. }
  rewrite chain_snoc. destruct (rev as_) as [|c r0] eqn:Er.
  { apply (f_equal (@rev _)) in Er. rewrite rev_involutive in Er. cbn in Er. subst. cbn.
    destruct (leg i a). exact I. }
  apply (f_equal (@rev _)) in Er. rewrite rev_involutive in Er. cbn [rev] in Er. subst as_.
  rewrite chain_snoc in *. apply meets_snoc; [exact M|].
  assert (FO := follows_any g _ s0 b0 b1 F G F0 E1).
  destruct (good_pass g a b1 b FA GA E) as (t & [[s u] du] & w & sg & r & l & S0 & _ & P & _).
  apply Forall_app in F. destruct F as [_ Fc]. inversion Fc as [|? ? FC _]; subst.
  destruct (start_values g _ c s0 b1 t s u du FO FC S0 i Hi) as (V0 & V1 & V2 & _).
  specialize (BA t (s, u, du) S0).
  destruct (fit_first g a FA) as (sg' & r' & P' & N & RS). rewrite P in P'. injection P' as <- <-.
  rewrite P in BA. cbn [hd] in BA.
  destruct (begins_values s u du sg _ BA N RS (proj2 (fit_time g a FA)) i Hi) as (W0 & W1 & W2).
  unfold leg at 4 5. rewrite P. cbn [hd fst snd].
  intros d Hd. destruct d as [|[|[|d]]]; [congruence|congruence|congruence|lia].
Qed.

(** the first pass starts at rest in the given state *)
Theorem mill_begin : forall g s0 b0 a as_ b i, Forall (fit g) (a :: as_) -> Forall (fun a => good a = true) (a :: as_) ->
  follows [] s0 b0 -> all_begin g b0 (a :: as_) -> mill_passes g (a :: as_) b0 = Some b -> (i < 3)%nat ->
  travelled (chain i (a :: as_)) 0 0 = nth i s0 0 /\ travelled (chain i (a :: as_)) 1 0 = 0 /\
  travelled (chain i (a :: as_)) 2 0 = 0.
Proof.
  intros g s0 b0 a as_ b i F G (K & C & _) B E Hi.
  inversion F as [|? ? FA _]; inversion G as [|? ? GA _]; subst.
  specialize (B 0%nat a b0 eq_refl GA eq_refl). specialize (B 0%Q (curr b0, [0; 0; 0], [0; 0; 0])).
  unfold mill_start in B. rewrite K in B. specialize (B eq_refl).
  destruct (fit_first g a FA) as (sg & r & P & N & RS). rewrite P in B. cbn [hd] in B.
  destruct (begins_values _ _ _ sg _ B N RS (proj2 (fit_time g a FA)) i Hi) as (W0 & W1 & W2).
  unfold chain. cbn [map]. unfold leg at 1 3 5. rewrite P. cbn [hd].
  rewrite !travelled_head by (left; apply (fit_time g a FA)). rewrite W0, W1, W2.
  split; [reflexivity|]. destruct i as [|[|[|i]]]; [auto|auto|auto|lia].
Qed.

(** where the run is after the last pass *)
Theorem mill_end : forall g s0 b0 as_ a b i, Forall (fit g) (as_ ++ [a]) -> Forall (fun a => good a = true) (as_ ++ [a]) ->
  follows [] s0 b0 -> mill_passes g (as_ ++ [a]) b0 = Some b -> (i < 3)%nat ->
  exists e, ends b = Some e /\ last (traj b) no_sample = e /\
  let D := duration (chain i (as_ ++ [a])) in
  nth i (q_state e) 0 = travelled (chain i (as_ ++ [a])) 0 D /\ nth i (q_input e) 0 = travelled (chain i (as_ ++ [a])) 1 D /\
  nth i (q_dinput e) 0 = travelled (chain i (as_ ++ [a])) 2 D /\ nth i (q_ddinput e) 0 = travelled (chain i (as_ ++ [a])) 3 D.
Proof.
  intros g s0 b0 as_ a b i F G F0 E Hi.
  assert (GS := chain_good g _ i F Hi).
  assert (PS : Forall (fun q : bspline * R => 0 < snd q) (chain i (as_ ++ [a]))).
  { revert GS. apply Forall_impl. intros q [_ H]. exact H. }
  rewrite passes_snoc in E. destruct (mill_passes g as_ b0) as [b1|] eqn:E1; [|discriminate].
  apply Forall_app in F. apply Forall_app in G. destruct F as [F Fa]. destruct G as [G Ga].
  inversion Fa as [|? ? FA _]; inversion Ga as [|? ? GA _]; subst.
  destruct (good_pass g a b1 b FA GA E) as (t & p & w & sg & r & l & _ & _ & P & _ & ->).
  exists (end_values sg (Q2R (first_time a))). cbn [ends traj]. split; [reflexivity|]. split.
  { unfold appended. rewrite app_assoc. apply last_last. }
  destruct (fit_first g a FA) as (sg' & r' & P' & N & _). rewrite P in P'. injection P' as <- <-.
  destruct (end_nth sg (Q2R (first_time a)) i ltac:(lia) (proj2 (fit_time g a FA))) as (A & B & C & D).
  rewrite chain_snoc in *. cbn zeta. rewrite !in_seconds_last by exact PS.
  unfold leg. rewrite P. cbn [hd fst snd]. auto.
Qed.

(** the times *)
Lemma total_app : forall l m, (total_of (l ++ m) == total_of l + total_of m)%Q.
Proof. intros l m. induction l as [|x l IH]; cbn [app total_of fold_right]; [unfold total_of; Lqa.lra|]. fold (total_of l). fold (total_of (l ++ m)). Lqa.lra. Qed.
Lemma chain_duration : forall i as_, duration (chain i as_) = Q2R (total_of (map first_time as_)).
Proof.
  intros i as_. induction as_ as [|a r IH]; cbn [chain map duration fold_right total_of].
  - rewrite RMicromega.Q2R_0. reflexivity.
  - rewrite Q2R_plus. fold (total_of (map first_time r)). rewrite <- IH. reflexivity.
Qed.
Theorem mill_times : forall g s0 b0 as_ b, Forall (fit g) as_ -> Forall (fun a => good a = true) as_ ->
  follows [] s0 b0 -> time_log b0 = [] -> clock b0 = 0%Q -> no_update b0 = false -> mill_passes g as_ b0 = Some b ->
  time_log b = map first_time as_ /\ (clock b == total_of (map first_time (removelast as_)))%Q /\ no_update b = false.
Proof.
  intros g s0 b0 as_. induction as_ as [|a as_ IH] using rev_ind; intros b F G F0 L0 C0 N0 E.
  - injection E as <-. cbn. rewrite C0. repeat split; auto.
  - rewrite passes_snoc in E. destruct (mill_passes g as_ b0) as [b1|] eqn:E1; [|discriminate].
    apply Forall_app in F. apply Forall_app in G. destruct F as [F Fa]. destruct G as [G Ga].
    inversion Fa as [|? ? FA _]; inversion Ga as [|? ? GA _]; subst.
    destruct (IH b1 F G F0 L0 C0 N0 eq_refl) as (L & C & N).
    destruct (good_pass g a b1 b FA GA E) as (t & [[s u] du] & w & sg & r & l & S0 & _ & P & _ & ->).
    cbn [time_log clock no_update]. rewrite L, removelast_last, map_app. cbn [map].
    split; [reflexivity|]. split; [|reflexivity].
    destruct (rev as_) as [|c r0] eqn:Er.
    { apply (f_equal (@rev _)) in Er. rewrite rev_involutive in Er. cbn in Er. subst. injection E1 as <-.
      destruct F0 as [K _]. unfold mill_start in S0. rewrite K in S0. injection S0 as <- _ _ _. reflexivity. }
    apply (f_equal (@rev _)) in Er. rewrite rev_involutive in Er. cbn [rev] in Er. subst as_.
    assert (FO := follows_any g _ s0 b0 b1 F G F0 E1).
    apply Forall_app in F. destruct F as [_ Fc]. inversion Fc as [|? ? FC _]; subst.
    destruct (start_values g _ c s0 b1 t s u du FO FC S0 0 ltac:(lia)) as (_ & _ & _ & ->).
    rewrite removelast_last in C. rewrite map_app. cbn [map]. rewrite total_app, C. unfold total_of at 3. cbn [fold_right]. Lqa.lra.
Qed.
