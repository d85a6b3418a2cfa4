(** Segments that are taken back, the limit on retries and the end of a
    machining run. *)
From Coq Require Import Reals QArith Qreals ZArith Lra Lia List Arith Bool.
From Coq Require Lqa.
From Verif Require Import Spline_Model Spline_Spec Splop_Spec Spline_Proofs Vehicle_Model Multi_Model Multi_Spec Multi_Proofs
  Concat_Model Concat_Spec Concat_Proofs4 Loop_Model Loop_Proofs2 Mill_Model Mill_Spec Mill_Proofs.
From Verif Require Timing_Model Grid_Model Gcode_Model.
Import ListNotations.
Local Open Scope R_scope.

(** ** a segment that the solver did not solve *)
Lemma retouched_some : forall l l', retouched l = Some l' ->
  exists r c1 c2, l = r ++ [c1; c2] /\
    l' = r ++ [c1; mkP (q_state c2) (perturbed (q_input c1) (q_input c2)) (q_dinput c2) (q_ddinput c2)].
Proof.
  intros l l' E. unfold retouched in E. destruct (rev l) as [|c2 [|c1 r]] eqn:R; try discriminate. injection E as <-.
  apply (f_equal (@rev _)) in R. rewrite rev_involutive in R. cbn [rev] in *. subst l.
  exists (rev r), c1, c2. rewrite <- !app_assoc. auto.
Qed.
Lemma retouched_total : forall r c1 c2, retouched (r ++ [c1; c2]) =
  Some (r ++ [c1; mkP (q_state c2) (perturbed (q_input c1) (q_input c2)) (q_dinput c2) (q_ddinput c2)]).
Proof.
  intros. unfold retouched. rewrite rev_app_distr. cbn [rev app]. rewrite rev_involutive, <- !app_assoc. reflexivity.
Qed.

Theorem rejected : forall g a b b', good a = false -> mill_pass g a b = Some b' ->
  exists r c1 c2 e0 e t p c, traj b = r ++ [c1; c2] /\
    traj b' = r ++ [c1; mkP (q_state c2) (perturbed (q_input c1) (q_input c2)) (q_dinput c2) (q_ddinput c2)] /\
    ends b = Some e0 /\ ends b' = Some e /\
    q_state e = q_state e0 /\ q_dinput e = q_dinput e0 /\ q_ddinput e = q_ddinput e0 /\
    time_log b' = time_log b /\ no_update b' = true /\ cnt b = Some c /\ cnt b' = Some (S c) /\ (c < 20)%nat /\
    mill_start b = Some (t, p) /\ clock b' = t /\
    kept b' <> None /\ motion0 b' = first_time a /\
    (exists w, mill_window g (fst (fst p)) b = Some w /\ window b' = w) /\
    exists s0 rest l, mill_store g a b = Some (Some (s0 :: rest), Some l) /\ q_input e = q_input (end_values s0 (Q2R (first_time a))).
Proof.
  intros g a b b' G E. destruct (pass_inv g a b b' E) as (t & p & w & s0 & rest & l & E1 & E2 & E3 & E4).
  cbn zeta in E4. unfold check_results in E4. rewrite G in E4.
  cbn [traj ends clock dep_clock no_update cnt window curr motion0 time_log pred kept plan] in E4.
  destruct (retouched (traj b)) as [l'|] eqn:RT; [|discriminate].
  destruct (ends b) as [e0|] eqn:EN; [|discriminate].
  destruct (cnt b) as [c|] eqn:CN; [|discriminate].
  destruct (20 <? S c)%nat eqn:LT; [discriminate|]. apply Nat.ltb_ge in LT.
  destruct (retouched_some _ _ RT) as (r & c1 & c2 & TB & ->). injection E4 as <-.
  exists r, c1, c2, e0, (mkP (q_state e0) (q_input (end_values s0 (Q2R (first_time a)))) (q_dinput e0) (q_ddinput e0)), t, p, c.
  cbn [traj ends clock dep_clock no_update cnt window curr motion0 time_log pred kept plan q_state q_input q_dinput q_ddinput].
  rewrite removelast_last. repeat (split; [solve [auto | lia | discriminate]|]).
  split; [exists w; auto|]. exists s0, rest, l. auto.
Qed.

(** the next pass *)
Theorem retried : forall g a b b' t p, good a = false -> mill_pass g a b = Some b' -> kept b <> None -> mill_start b = Some (t, p) ->
  exists u, mill_start b' = Some ((t + first_time a)%Q, (fst (fst p), u, snd p)) /\
  (forall s w, mill_window g s b' = Some w -> w = window b').
Proof.
  intros g a b b' t p G E K S0. destruct (rejected g a b b' G E) as
    (r & c1 & c2 & e0 & e & t' & p' & c & T1 & T2 & N1 & N2 & Q1 & Q2 & Q3 & L & NU & C1 & C2 & C3 & S1 & CK & K' & M & W & _).
  rewrite S0 in S1. injection S1 as <- <-. exists (q_input e). split.
  - unfold mill_start in *. destruct (kept b'); [|congruence]. rewrite N2, CK, M, Q1, Q2.
    destruct (kept b); [|congruence]. rewrite N1 in S0. injection S0 as _ <-. reflexivity.
  - intros s w H. unfold mill_window in H. rewrite NU in H.
    destruct (Gcode_Model.check_segments _ _ _ _) as [[|]|]; congruence.
Qed.

(** ** positions and accelerations always fit together *)
Definition state_after (a : result) (b : bench) : Prop :=
  kept b <> None /\ exists sg r e, pieces a = sg :: r /\ ends b = Some e /\
    q_state e = q_state (end_values sg (Q2R (first_time a))) /\ q_dinput e = q_dinput (end_values sg (Q2R (first_time a))).
Definition fits_good (g : workshop) (as_ : list result) : Prop := Forall (fun a => good a = true -> fit g a) as_.
Lemma carried_snoc : forall as_ a, carried (as_ ++ [a]) = carried as_ ++ (if good a then [a] else []).
Proof. intros. unfold carried. rewrite filter_app. cbn [filter]. destruct (good a); reflexivity. Qed.
Lemma carried_fit : forall g as_, fits_good g as_ -> Forall (fit g) (carried as_).
Proof.
  intros g as_ F. unfold carried. apply Forall_forall. intros a I. apply filter_In in I. destruct I as [I G].
  unfold fits_good in F. rewrite Forall_forall in F. auto.
Qed.
Lemma after_carried : forall g s0 b0 as_ b, fits_good g as_ -> follows [] s0 b0 -> traj b0 = [mkP s0 [0; 0; 0] [0; 0; 0] [0; 0; 0]] ->
  mill_passes g as_ b0 = Some b -> as_ <> [] -> exists cs a, carried as_ = cs ++ [a] /\ state_after a b.
Proof.
  intros g s0 b0 as_. induction as_ as [|a as_ IH] using rev_ind; intros b F F0 T0 E NE; [congruence|].
  rewrite passes_snoc in E. destruct (mill_passes g as_ b0) as [b1|] eqn:E1; [|discriminate].
  apply Forall_app in F. destruct F as [F Fa]. inversion Fa as [|? ? FA _]; subst.
  rewrite carried_snoc. destruct (good a) eqn:G.
  - exists (carried as_), a. split; [reflexivity|].
    destruct (good_pass g a b1 b (FA eq_refl) G E) as (t & p & w & sg & r & l & _ & _ & P & _ & ->).
    split; [discriminate|]. exists sg, r. cbn [ends]. eauto 10.
  - destruct (rejected g a b1 b G E) as
      (r & c1 & c2 & e0 & e & t' & p' & c & T1 & T2 & N1 & N2 & Q1 & Q2 & Q3 & L & NU & C1 & C2 & C3 & S1 & CK & K' & M & W & _).
    destruct as_ as [|a0 as_].
    { injection E1 as <-. rewrite T0 in T1. destruct r as [|? [|? ?]]; discriminate. }
    destruct (IH b1 F F0 T0 eq_refl ltac:(discriminate)) as (cs & a' & EC & KK & sg & r' & e' & P & EE & V1 & V2).
    exists cs, a'. rewrite app_nil_r. split; [exact EC|]. split; [exact K'|]. exists sg, r', e. rewrite N1 in EE. injection EE as <-.
    repeat split; auto; congruence.
Qed.
Lemma agrees_snoc : forall d l q1 q, agrees d (l ++ [q1]) -> in_seconds (fst q1) (snd q1) d (snd q1) = in_seconds (fst q) (snd q) d 0 ->
  agrees d ((l ++ [q1]) ++ [q]).
Proof.
  intros d l q1 q. induction l as [|[s T] l IH]; intros M C.
  - destruct q1 as [s1 T1]; destruct q as [s2 T2]. cbn. split; [exact C|exact I].
  - cbn [app] in *. destruct l as [|[s' T'] l'].
    + cbn [app] in *. destruct q1 as [s1 T1]; destruct q as [s2 T2]. cbn [agrees] in *. destruct M as [M1 _]. auto.
    + cbn [app] in *. destruct M as [M1 M2]. split; [exact M1|]. apply IH; assumption.
Qed.
Theorem positions_fit : forall g s0 b0 as_ b i d, fits_good g as_ -> follows [] s0 b0 ->
  traj b0 = [mkP s0 [0; 0; 0] [0; 0; 0] [0; 0; 0]] -> all_begin g b0 as_ -> mill_passes g as_ b0 = Some b -> (i < 3)%nat ->
  d = 0%nat \/ d = 2%nat -> agrees d (chain i (carried as_)).
Proof.
  intros g s0 b0 as_. induction as_ as [|a as_ IH] using rev_ind; intros b i d F F0 T0 B E Hi Hd; [exact I|].
  rewrite passes_snoc in E. destruct (mill_passes g as_ b0) as [b1|] eqn:E1; [|discriminate].
  pose proof F as FF. apply Forall_app in F. destruct F as [F Fa]. inversion Fa as [|? ? FA _]; subst.
  assert (M : agrees d (chain i (carried as_))).
  { apply (IH b1 i d F F0 T0); auto. intros k a' b' N. assert (k < length as_)%nat by (apply nth_error_Some; congruence).
    assert (N' : nth_error (as_ ++ [a]) k = Some a') by (rewrite nth_error_app1 by lia; exact N).
    intros G' P. apply (B k a' b' N' G'). rewrite firstn_app. replace (k - length as_)%nat with 0%nat by lia.
    cbn [firstn]. rewrite app_nil_r. exact P. }
  rewrite carried_snoc. destruct (good a) eqn:G; [|rewrite app_nil_r; exact M].
  specialize (FA eq_refl).
  assert (BA : begins b1 a).
  { apply (B (length as_) a b1); auto.
    - rewrite nth_error_app2, Nat.sub_diag by lia. reflexivity.
    - rewrite firstn_app, Nat.sub_diag, firstn_all. cbn [firstn]. rewrite app_nil_r. exact E1. }
  destruct as_ as [|a0 r0].
  { cbn. destruct (leg i a). exact I. }
  destruct (after_carried g s0 b0 (a0 :: r0) b1 F F0 T0 E1 ltac:(discriminate)) as (cs & c & EC & K & sg & rr & e & P & EN & V0 & V2).
  rewrite EC in *. rewrite !chain_snoc in *. apply agrees_snoc; [exact M|].
  assert (FC : fit g c).
  { pose proof (carried_fit g (a0 :: r0) F) as CF. rewrite EC in CF. apply Forall_app in CF. destruct CF as [_ CF]. inversion CF; assumption. }
  specialize (BA (clock b1 + motion0 b1)%Q (q_state e, q_input e, q_dinput e)).
  unfold mill_start in BA. destruct (kept b1); [|congruence]. rewrite EN in BA. specialize (BA eq_refl).
  destruct (fit_first g a FA) as (sg' & r' & P' & N & RS). rewrite P' in BA. cbn [hd] in BA.
  destruct (begins_values _ _ _ sg' _ BA N RS (proj2 (fit_time g a FA)) i Hi) as (W0 & W1 & W2).
  destruct (fit_first g c FC) as (sg2 & r2 & P2 & N2 & _). rewrite P in P2. injection P2 as <- <-.
  destruct (end_nth sg (Q2R (first_time c)) i ltac:(lia) (proj2 (fit_time g c FC))) as (A0 & A1 & A2 & _).
  unfold leg. rewrite P, P'. cbn [hd fst snd]. destruct Hd as [-> | ->]; congruence.
Qed.

(** the log holds the times of the segments that were carried out *)
Theorem log_carried : forall g as_ b0 b, time_log b0 = [] -> mill_passes g as_ b0 = Some b -> time_log b = map first_time (carried as_).
Proof.
  intros g as_ b0. induction as_ as [|a as_ IH] using rev_ind; intros b L E; [injection E as <-; exact L|].
  rewrite passes_snoc in E. destruct (mill_passes g as_ b0) as [b1|] eqn:E1; [|discriminate].
  specialize (IH b1 L eq_refl). rewrite carried_snoc, map_app. destruct (good a) eqn:G.
  - destruct (pass_inv g a b1 b E) as (t & p & w & s0 & rest & l & _ & _ & _ & E4). cbn zeta in E4.
    unfold check_results in E4. rewrite G in E4. injection E4 as <-. cbn [time_log map]. rewrite IH. reflexivity.
  - destruct (rejected g a b1 b G E) as
      (r & c1 & c2 & e0 & e & t' & p' & c & T1 & T2 & N1 & N2 & Q1 & Q2 & Q3 & LL & _). rewrite LL, IH. cbn [map]. rewrite app_nil_r. reflexivity.
Qed.

(** ** the limit *)
Theorem first_failure : forall g n s guess b0 a, bench0 g n s guess = Some b0 -> good a = false -> mill_pass g a b0 = None.
Proof.
  intros g n s guess b0 a E G. destruct (mill_pass g a b0) as [b'|] eqn:P; [|reflexivity].
  destruct (rejected g a b0 b' G P) as (r & c1 & c2 & _ & _ & _ & _ & _ & T1 & _).
  destruct (bench0_follows g n s guess b0 E) as (_ & _ & T0 & _). rewrite T0 in T1. destruct r as [|? [|? ?]]; discriminate.
Qed.
Theorem failures_counted : forall g as_ b b', Forall (fun a => good a = false) as_ -> mill_passes g as_ b = Some b' -> as_ <> [] ->
  exists c, cnt b = Some c /\ cnt b' = Some (c + length as_)%nat /\ (c + length as_ <= 20)%nat.
Proof.
  intros g as_. induction as_ as [|a as_ IH]; intros b b' F E NE; [congruence|].
  inversion F as [|? ? FA FR]; subst. cbn [mill_passes] in E. destruct (mill_pass g a b) as [b1|] eqn:E1; [|discriminate].
  destruct (rejected g a b b1 FA E1) as
    (r & c1 & c2 & e0 & e & t' & p' & c & T1 & T2 & N1 & N2 & Q1 & Q2 & Q3 & L & NU & C1 & C2 & C3 & _).
  exists c. split; [exact C1|]. destruct as_ as [|a2 as_].
  - injection E as <-. cbn [length]. rewrite C2. split; [f_equal|]; lia.
  - destruct (IH b1 b' FR E ltac:(discriminate)) as (c' & D1 & D2 & D3). rewrite C2 in D1. injection D1 as <-.
    cbn [length] in *. split; [rewrite D2; f_equal|]; lia.
Qed.
Theorem too_many_failures : forall g as_ b, Forall (fun a => good a = false) as_ -> (20 < length as_)%nat -> mill_passes g as_ b = None.
Proof.
  intros g as_ b F L. destruct (mill_passes g as_ b) as [b'|] eqn:E; [|reflexivity].
  destruct (failures_counted g as_ b b' F E) as (c & _ & _ & H); [destruct as_; [cbn in L; lia|discriminate]|lia].
Qed.
Lemma cnt_pass : forall g a b b' , mill_pass g a b = Some b' -> (forall c, cnt b = Some c -> (c <= 20)%nat) -> forall c, cnt b' = Some c -> (c <= 20)%nat.
Proof.
  intros g a b b' E H c C. destruct (good a) eqn:G.
  - destruct (pass_inv g a b b' E) as (t & p & w & s0 & rest & l & _ & _ & _ & E4). cbn zeta in E4.
    unfold check_results in E4. rewrite G in E4. injection E4 as <-. cbn [cnt no_update] in C. destruct (no_update b); [auto|].
    injection C as <-. lia.
  - destruct (rejected g a b b' G E) as
      (r & c1 & c2 & e0 & e & t' & p' & k & T1 & T2 & N1 & N2 & Q1 & Q2 & Q3 & L & NU & C1 & C2 & C3 & _).
    rewrite C2 in C. injection C as <-. lia.
Qed.
Theorem cnt_bounded : forall g as_ b0 b, cnt b0 = None -> mill_passes g as_ b0 = Some b -> forall c, cnt b = Some c -> (c <= 20)%nat.
Proof.
  intros g as_ b0. induction as_ as [|a as_ IH] using rev_ind; intros b N E c C; [injection E as <-; congruence|].
  rewrite passes_snoc in E. destruct (mill_passes g as_ b0) as [b1|] eqn:E1; [|discriminate].
  apply (cnt_pass g a b1 b E (IH b1 N eq_refl) c C).
Qed.
(** after a pass that was not a retry the count starts again *)
Theorem count_restarts : forall g a b b', good a = true -> no_update b = false -> mill_pass g a b = Some b' -> cnt b' = Some 0%nat /\ no_update b' = false.
Proof.
  intros g a b b' G N E. destruct (pass_inv g a b b' E) as (t & p & w & s0 & rest & l & _ & _ & _ & E4). cbn zeta in E4.
  unfold check_results in E4. rewrite G in E4. injection E4 as <-. cbn [cnt no_update]. rewrite N. auto.
Qed.

(** ** the window *)
Lemma pass_window : forall g a b b', mill_pass g a b = Some b' -> exists t p, mill_start b = Some (t, p) /\
  mill_window g (fst (fst p)) b = Some (window b') /\ no_update b' = negb (good a).
Proof.
  intros g a b b' E. destruct (pass_inv g a b b' E) as (t & p & w & s0 & rest & l & E1 & E2 & _ & E4).
  exists t, p. split; [exact E1|]. cbn zeta in E4. unfold check_results in E4. destruct (good a).
  - injection E4 as <-. cbn [window no_update negb]. auto.
  - cbn [ends cnt] in E4. destruct (retouched (traj b)), (ends b), (cnt b); try discriminate.
    destruct (20 <? S n)%nat; [discriminate|]. injection E4 as <-. cbn [window no_update negb]. auto.
Qed.
Lemma step_cur : forall rs go i w w', Gcode_Model.solve_step rs go i w = Some w' ->
  Gcode_Model.n_cur w' = Gcode_Model.n_cur w \/ Gcode_Model.n_cur w' = S (Gcode_Model.n_cur w).
Proof.
  intros rs go i w w' E. unfold Gcode_Model.solve_step in E. destruct (Gcode_Model.check_segments rs go i w) as [[|]|]; [injection E as <-; auto| |discriminate].
  right. unfold Gcode_Model.update_segments in E. cbn [Gcode_Model.segs Gcode_Model.n_cur Gcode_Model.n_seg Gcode_Model.next_seg] in E.
  destruct (last _ _) as [l|]; [|discriminate]. destruct (Gcode_Model.rnumber l <? length rs - 1)%nat.
  - destruct (nth_error rs _) as [r|]; [|discriminate].
    match type of E with match ?x with _ => _ end = _ => destruct x; [|discriminate] end. injection E as <-. reflexivity.
  - injection E as <-. reflexivity.
Qed.
Lemma window_cur : forall g s b w, mill_window g s b = Some w ->
  (no_update b = true -> w = window b) /\
  (Gcode_Model.n_cur w = Gcode_Model.n_cur (window b) \/ Gcode_Model.n_cur w = S (Gcode_Model.n_cur (window b))).
Proof.
  intros g s b w E. unfold mill_window in E. destruct (Gcode_Model.check_segments _ _ _ _) as [[|]|]; [injection E as <-; auto| |discriminate].
  destruct (no_update b); [injection E as <-; auto|]. split; [discriminate|]. apply (step_cur _ _ _ _ _ E).
Qed.
(** at most one new block per segment that is carried out *)
Theorem block_progress : forall g n s guess b0 as_ b, bench0 g n s guess = Some b0 -> mill_passes g as_ b0 = Some b ->
  (Gcode_Model.n_cur (window b) <= length (carried as_) + (if no_update b then 1 else 0))%nat.
Proof.
  intros g n s guess b0 as_ b E0. revert b. induction as_ as [|a as_ IH] using rev_ind; intros b E.
  - injection E as <-. unfold bench0 in E0. destruct (Gcode_Model.reinitialize (rooms g) n) as [w|] eqn:R; [|discriminate].
    injection E0 as <-. cbn [window]. unfold Gcode_Model.reinitialize in R. destruct (_ <? n)%nat; [discriminate|]. injection R as <-.
    cbn [Gcode_Model.n_cur]. lia.
  - rewrite passes_snoc in E. destruct (mill_passes g as_ b0) as [b1|]; [|discriminate]. specialize (IH b1 eq_refl).
    destruct (pass_window g a b1 b E) as (t & p & _ & W & NU). destruct (window_cur g _ b1 _ W) as [H1 H2].
    rewrite carried_snoc, app_length, NU. destruct (no_update b1).
    + rewrite (H1 eq_refl). destruct (good a); cbn [negb length]; lia.
    + destruct (good a); cbn [negb length]; lia.
Qed.

(** ** the end of a run with one segment at a time *)
Definition one_room (g : workshop) (w : Gcode_Model.sched) : Prop :=
  let k := Gcode_Model.n_cur w in
  Gcode_Model.n_seg w = 1%nat /\ (exists r, Gcode_Model.segs w = [r] /\ nth_error (rooms g) k = Some r) /\
  match nth_error (rooms g) (S k) with
  | Some r => Gcode_Model.next_seg w = Some (Some r)
  | None => Gcode_Model.next_seg w = None \/ Gcode_Model.next_seg w = Some None
  end.
Lemma one_start : forall g s guess b0, bench0 g 1 s guess = Some b0 -> one_room g (window b0).
Proof.
  intros g s guess b0 E. unfold bench0 in E. destruct (Gcode_Model.reinitialize (rooms g) 1) as [w|] eqn:R; [|discriminate].
  injection E as <-. cbn [window]. unfold Gcode_Model.reinitialize in R.
  unfold Gcode_Model.slice in R. cbn [skipn Nat.sub] in R. destruct (rooms g) as [|r0 [|r1 rest]] eqn:RR.
  - discriminate.
  - cbn in R. injection R as <-. unfold one_room. cbn. rewrite RR. cbn. eauto 10.
  - cbn in R. injection R as <-. unfold one_room. cbn. rewrite RR. cbn. eauto 10.
Qed.
Lemma one_step : forall g i w w', numbered (rooms g) -> one_room g w -> Gcode_Model.solve_step (rooms g) (goal g) i w = Some w' -> one_room g w'.
Proof.
  intros g i w w' NB (N1 & (r & S1 & R1) & NX) E. unfold Gcode_Model.solve_step in E.
  destruct (Gcode_Model.check_segments (rooms g) (goal g) i w) as [[|]|] eqn:C; [injection E as <-; repeat split; eauto| |discriminate].
  unfold Gcode_Model.check_segments in C. rewrite S1 in C. destruct (Gcode_Model.is_last _ _ _); [discriminate|].
  destruct (nth_error (rooms g) (S (Gcode_Model.n_cur w))) as [r2|] eqn:R2.
  - unfold Gcode_Model.update_segments in E. cbn [Gcode_Model.segs Gcode_Model.n_cur Gcode_Model.n_seg Gcode_Model.next_seg] in E.
    rewrite S1 in E. cbn [map last] in E. rewrite (NB _ _ R1) in E. rewrite N1 in E.
    assert (L2 : (S (Gcode_Model.n_cur w) < length (rooms g))%nat) by (apply nth_error_Some; congruence).
    destruct (Nat.ltb_spec (Gcode_Model.n_cur w) (length (rooms g) - 1)) as [_|H]; [|lia].
    replace (S (Gcode_Model.n_cur w) + (1 - 1))%nat with (S (Gcode_Model.n_cur w)) in E by lia. rewrite R2 in E.
    cbn [Nat.eqb] in E. rewrite (NB _ _ R2) in E.
    replace (S (Gcode_Model.n_cur w) + 1)%nat with (S (S (Gcode_Model.n_cur w))) in E by lia.
    destruct (Nat.ltb_spec (S (Gcode_Model.n_cur w)) (length (rooms g) - 1)) as [H|H].
    + destruct (nth_error (rooms g) (S (S (Gcode_Model.n_cur w)))) as [r3|] eqn:R3; [|discriminate].
      injection E as <-. unfold one_room. cbn [Gcode_Model.n_seg Gcode_Model.segs Gcode_Model.n_cur Gcode_Model.next_seg].
      rewrite R3. split; [reflexivity|]. split; [|reflexivity]. exists r2. auto.
    + injection E as <-. unfold one_room. cbn [Gcode_Model.n_seg Gcode_Model.segs Gcode_Model.n_cur Gcode_Model.next_seg].
      assert (nth_error (rooms g) (S (S (Gcode_Model.n_cur w))) = None) as -> by (apply nth_error_None; lia).
      split; [reflexivity|]. split; [|auto]. exists r2. auto.
  - destruct NX as [X|X]; rewrite X in C; [discriminate|]. rewrite N1 in C. discriminate.
Qed.
Theorem run_end : forall g s guess b0 as_ b, numbered (rooms g) -> bench0 g 1 s guess = Some b0 -> mill_run g as_ b0 = Some b ->
  norm (vsub (goal_state g) (q_state (last (traj b) no_sample))) < 1 / 100 /\ norm (q_input (last (traj b) no_sample)) < 1 / 100 /\
  exists r, Gcode_Model.segs (window b) = [r] /\ last (map Some (rooms g)) None = Some r /\
  exists used left, as_ = used ++ left /\ mill_passes g used b0 = Some b /\ (length (rooms g) <= S (length (carried used)) + (if no_update b then 1 else 0))%nat.
Proof.
  intros g s guess b0 as_ b NB E0 E.
  assert (H : forall as_ pre b1, mill_passes g pre b0 = Some b1 -> one_room g (window b1) -> mill_run g as_ b1 = Some b ->
    target_reached g b = true /\ one_room g (window b) /\ exists used left, as_ = used ++ left /\ mill_passes g (pre ++ used) b0 = Some b).
  { clear as_ E. intros as_. induction as_ as [|a r IH]; intros pre b1 P W E; [discriminate|].
    cbn [mill_run] in E. destruct (mill_pass g a b1) as [b2|] eqn:E2; [|discriminate].
    assert (P2 : mill_passes g (pre ++ [a]) b0 = Some b2) by (rewrite passes_snoc, P; exact E2).
    assert (W2 : one_room g (window b2)).
    { destruct (pass_window g a b1 b2 E2) as (t & p & _ & X & _). unfold mill_window in X.
      destruct (Gcode_Model.check_segments _ _ _ _) as [[|]|]; [injection X as <-; exact W| |discriminate].
      destruct (no_update b1); [injection X as <-; exact W|]. apply (one_step g _ _ _ NB W X). }
    destruct (target_reached g b2) eqn:TR.
    - injection E as <-. split; [exact TR|]. split; [exact W2|]. exists [a], r. auto.
    - destruct (IH (pre ++ [a]) b2 P2 W2 E) as (A & B & used & left & -> & U). split; [exact A|]. split; [exact B|].
      exists (a :: used), left. split; [reflexivity|]. rewrite <- app_assoc in U. exact U. }
  destruct (H as_ [] b0 eq_refl (one_start g s guess b0 E0) E) as (TR & (N1 & (r & S1 & R1) & NX) & used & left & EA & U).
  cbn [app] in U. unfold target_reached in TR. rewrite !andb_true_iff in TR. destruct TR as [[T1 T2] T3].
  assert (RL : forall x y, Spline_Model.Rltb x y = true -> x < y).
  { intros x y. unfold Spline_Model.Rltb. destruct (Rlt_dec x y); [auto|discriminate]. }
  split; [apply RL; exact T1|]. split; [apply RL; exact T2|]. exists r. split; [exact S1|].
  assert (LS : S (Gcode_Model.n_cur (window b)) = length (rooms g)).
  { destruct (nth_error (rooms g) (S (Gcode_Model.n_cur (window b)))) as [r2|] eqn:R2; [rewrite NX in T3; discriminate|].
    apply nth_error_None in R2. assert (Gcode_Model.n_cur (window b) < length (rooms g))%nat by (apply nth_error_Some; congruence). lia. }
  split.
  - destruct (rev (rooms g)) as [|x rr] eqn:RV.
    { apply (f_equal (@length _)) in RV. rewrite rev_length in RV. cbn in RV. lia. }
    apply (f_equal (@rev _)) in RV. rewrite rev_involutive in RV. cbn [rev] in RV. rewrite RV, map_app in *. cbn [map]. rewrite last_last.
    rewrite app_length in LS. cbn [length] in LS. replace (Gcode_Model.n_cur (window b)) with (length (rev rr)) in R1 by lia.
    rewrite nth_error_app2, Nat.sub_diag in R1 by lia. cbn in R1. exact R1.
  - exists used, left. split; [exact EA|]. split; [exact U|].
    pose proof (block_progress g 1 s guess b0 used b E0 U). lia.
Qed.
