(* The target of the local problem. *)
From Coq Require Import QArith Qabs List Bool Arith ZArith Lia Lqa.
From Verif Require Import Frame_Model Frame_Spec Frame_Proofs Frame_Proofs4 Sched_Model Sched_Spec
  Sched_Proofs Sched_Proofs2 Sched_Proofs3 Sched_Proofs4.
Import ListNotations.
Open Scope Q_scope.

Lemma rev_cons {A} (l r : list A) x : rev l = x :: r -> l = rev r ++ [x].
Proof. intros H. rewrite <- (rev_involutive l), H. reflexivity. Qed.

Lemma pt_of_some w p : pt_of w = Ok p -> w = Some p.
Proof. destruct w; cbn; congruence. Qed.

Lemma is_pt_iff p b : is_pt (Some p) b = true <-> pt_eq p b.
Proof.
  unfold is_pt, pt_eqb, pt_eq. rewrite andb_true_iff. unfold eqb.
  rewrite !Qeq_bool_iff. reflexivity.
Qed.

Lemma set_target_ok s frames next tg : set_target s frames next = Ok tg ->
  exists fs f, frames = fs ++ [f] /\ aims s next f tg.
Proof.
  unfold set_target. intros H. destruct (rev frames) as [|f r] eqn:E; [discriminate|].
  exists (rev r), f. split; [apply rev_cons, E|]. ib H w E1.
  unfold last_wp in E1. destruct (rev (f_waypoints (sf f))) as [|w' ws] eqn:E2; [discriminate|].
  injection E1 as ->. pose proof (rev_cons _ _ _ E2) as E3.
  destruct (w_dubins (s_world s)) eqn:D.
  - destruct (is_pt w (w_goal (s_world s))) eqn:G.
    + injection H as <-. cbn. destruct w as [p|]; [|discriminate]. split; [exact D|].
      exists (rev ws), p. split; [exact E3|]. apply is_pt_iff, G.
    + ib H p1 E4. ib H p2 E5. ib H p E6. injection H as <-. cbn. apply pt_of_some in E6. subst w.
      split; [exact D|]. split; [intros X; apply is_pt_iff in X; congruence|].
      unfold second_last in E4. rewrite E2 in E4. destruct ws as [|w1 ws]; [discriminate|].
      apply pt_of_some in E4. subst w1. exists (rev ws), p1, p2. split.
      { rewrite E3. cbn. rewrite <- app_assoc. reflexivity. }
      split; [reflexivity|]. destruct next as [[nf|]|]; [|discriminate|].
      * unfold second in E5. destruct (f_waypoints (sf nf)) as [|a [|b rest]]; try discriminate.
        apply pt_of_some in E5. subst b. eauto.
      * cbn in E5. congruence.
  - ib H p E4. injection H as <-. cbn. apply pt_of_some in E4. subst w. split; [exact D|]. eauto.
Qed.

Lemma aims_kinw s next f f' tg : kinw f f' -> aims s next f tg -> aims s next f' tg.
Proof. intros [_ W]. unfold aims. rewrite W. auto. Qed.

Definition tinv (s : scfg) (g : sched) : Prop :=
  exists fs f tg, g_frames g = fs ++ [f] /\ g_target g = Some tg /\ aims s (g_next g) f tg.

Lemma last_kinw a b fs f : Forall2 kinw a b -> a = fs ++ [f] -> exists fs' f', b = fs' ++ [f'] /\ kinw f f'.
Proof.
  intros K ->. apply Forall2_app_inv_l in K. destruct K as (l1 & l2 & _ & K & ->).
  inversion K as [|? f' ? ? KF K2]; subst. inversion K2; subst. exists l1, f'. auto.
Qed.

Lemma finish_target s obs curr old T fs n next fs' ts tg rooms :
  finish s obs curr old T fs n next = Ok (fs', ts, tg, rooms) ->
  exists l f, fs' = l ++ [f] /\ aims s next f tg.
Proof.
  unfold finish, get_init_guess. intros F. ib F r E. ib E r' E1. destruct r' as [fs1 ts1].
  ib E tg1 E2. destruct r as [[fs2 ts2] tg2].
  assert (fs1 = fs2 /\ tg1 = tg2) as [-> ->] by (injection E; auto). clear E.
  ib F fs3 E3. ib F rm E4. injection F as -> -> <- ->.
  apply set_target_ok in E2. destruct E2 as (l & f & -> & A).
  apply look_ok in E3. destruct E3 as (K & _).
  destruct (last_kinw _ _ _ _ K eq_refl) as (l' & f' & -> & KF). exists l', f'. split; [reflexivity|].
  eapply aims_kinw; eassumption.
Qed.

Lemma solve_tinv s curr obs T g g' b : tinv s g -> solve s curr obs T g = Ok (g', b) -> tinv s g'.
Proof.
  intros (fs & f & tg & EF & ET & A) H. apply solve_cases in H.
  destruct H as [(C & fs1 & ts & TS & CM & D)|(C & -> & fs1 & n & next & fs' & ts & tg1 & rooms & M & F & ->)].
  - apply compare_ok in CM. destruct CM as (K & _). destruct (last_kinw _ _ _ _ K EF) as (l & f' & -> & KF).
    exists l, f', tg. destruct b; [destruct D as (rooms & _ & ->)|subst g']; cbn;
      (split; [reflexivity|split; [exact ET|eapply aims_kinw; eassumption]]).
  - apply finish_target in F. destruct F as (l & f' & -> & A'). exists l, f', tg1. cbn. auto.
Qed.

Lemma target_aims w o start ins s g : execute w (Some o) start ins = Ok (s, g) ->
  exists fs f tg, g_frames g = fs ++ [f] /\ g_target g = Some tg /\ aims s (g_next g) f tg.
Proof.
  intros H. apply execute_cases in H. destruct H as (g0 & g1 & A & B & C).
  assert (tinv s g1) as T1.
  { apply reinit_finish in B. destruct B as (fs & n & next & fs' & ts & tg & rooms & _ & F & ->).
    apply finish_target in F. destruct F as (l & f' & -> & A'). exists l, f', tg. cbn. auto. }
  clear A B. revert g1 T1 C. induction ins as [|i ins IH]; intros g1 T1 C; cbn in C.
  - injection C as <-. exact T1.
  - ib C r E. destruct r as [g2 b]. eapply IH; [|exact C]. eapply solve_tinv; eassumption.
Qed.

(* ---- corridors and vehicles without heading: the target is the end of the frame ---- *)

Definition last_proper (fs : list sframe) : Prop := exists l f, fs = l ++ [f] /\ proper f.

Lemma last_proper_kinw a b : Forall2 kinw a b -> last_proper a -> last_proper b.
Proof.
  intros K (l & f & E & P). destruct (last_kinw _ _ _ _ K E) as (l' & f' & -> & KF). exists l', f'.
  split; [reflexivity|]. eapply kinw_proper; eassumption.
Qed.
Lemma Forall_last fs : Forall proper fs -> fs <> [] -> last_proper fs.
Proof.
  intros P N. destruct (last_split fs N) as (l & f & ->). exists l, f. split; [reflexivity|].
  rewrite Forall_app in P. destruct P as [_ P]. inversion P; assumption.
Qed.

Lemma finish_last s obs curr old T fs n next fs' ts tg rooms : w_dubins (s_world s) = false ->
  (n = 0%nat -> fs = []) -> last_proper fs ->
  finish s obs curr old T fs n next = Ok (fs', ts, tg, rooms) -> last_proper fs'.
Proof.
  intros D NZ LP F. pose proof (finish_ok _ _ _ _ _ _ _ _ _ _ _ _ NZ F) as (N1 & LN & _).
  unfold finish, get_init_guess in F. ib F r E. ib E r' E1. destruct r' as [fs1 ts1].
  ib E tg1 E2. destruct r as [[fs2 ts2] tg2].
  assert (fs1 = fs2 /\ tg1 = tg2) as [-> ->] by (injection E; auto). clear E.
  ib F fs3 E3. ib F rm E4. injection F as -> -> <- ->.
  apply look_ok in E3. destruct E3 as (K & _). eapply last_proper_kinw; [exact K|]. clear K E4 E2.
  destruct LP as (l & f & -> & P). rewrite app_length in LN. cbn in LN.
  destruct l as [|f0 l].
  - cbn in LN. subst n.
    assert (exists f' t, start_here curr f = Ok f' /\ guess_time s (f_waypoints (sf f')) = Ok t /\ fs2 = [f'])
      as (f' & t & A & B & ->).
    { destruct old as [rooms0|]; cbn in E1.
      - ib E1 f' A. ib A x A1. ib A t A2. injection A as <-. injection E1 as <- _. eauto.
      - ib E1 f' A. ib E1 t A2. injection E1 as <- _. eauto. }
    exists [], f'. split; [reflexivity|]. unfold start_here in A.
    destruct (f_waypoints (sf f)) as [|w ws] eqn:EW; [discriminate|]. injection A as <-.
    cbn [sf f_waypoints] in B. destruct P as [PL PN]. unfold proper, last_wp in *. cbn [sf f_waypoints f_endpoint].
    rewrite EW in PL. split; [|exact PN]. rewrite <- PL.
    destruct (rev ws) as [|z zs] eqn:Z.
    + assert (ws = []) as -> by (rewrite <- (rev_involutive ws), Z; reflexivity).
      exfalso. unfold guess_time in B. cbn in B. rewrite D in B. cbn in B. discriminate.
    + cbn [rev]. rewrite Z. reflexivity.
  - apply guess_all_ok in E1; [|exact N1]. destruct E1 as (KL & _ & _ & TL). cbn [app tl] in TL.
    destruct fs2 as [|g0 fs2]; [inversion KL|]. cbn in TL. subst fs2. exists (g0 :: l), f. split; [reflexivity|exact P].
Qed.

Lemma reinit_last s obs T g g' : w_dubins (s_world s) = false -> s_type s = Corridor -> fresh g ->
  reinitialize s obs T g = Ok g' -> last_proper (g_frames g').
Proof.
  intros DU TY [F1 F2] H. apply reinit_finish in H.
  destruct H as (fs & n & next & fs' & ts & tg & rooms & C & F & ->). rewrite F1, F2 in C.
  apply first_frames in C. destruct C as (fs0 & next0 & CL & LF & K0 & NK & D & NX).
  pose proof (create_loop_chain _ _ _ _ _ TY _ _ _ _ _ _ _ CL) as (new & -> & P & CH & ST). cbn [app] in *.
  assert (NZ : n = 0%nat -> fs = []).
  { intros ->. destruct D as [[X Y]|(X & Y & Z & _)]; [|lia]. destruct fs; [reflexivity|cbn in X; lia]. }
  pose proof (finish_ok _ _ _ _ _ _ _ _ _ _ _ _ NZ F) as (N1 & LN & _).
  eapply finish_last; [exact DU|exact NZ| |exact F].
  apply Forall_last; [eapply kinws_proper; [exact K0|exact P]|]. intros ->. cbn in LN. lia.
Qed.

Lemma solve_last s N curr obs T g g' b : w_dubins (s_world s) = false -> s_type s = Corridor ->
  inv s N g -> cinv s N g -> last_proper (g_frames g) ->
  solve s curr obs T g = Ok (g', b) -> last_proper (g_frames g').
Proof.
  intros DU TY I CI LP H. pose proof CI as [CH P NE SH]. apply solve_cases in H.
  destruct H as [(C & fs & ts & TS & CM & D)|(C & -> & fs & n & next & fs' & ts & tg & rooms & M & F & ->)].
  - apply compare_ok in CM. destruct CM as (K & _).
    assert (g_frames g' = fs) as -> by (destruct b; [destruct D as (rooms & _ & ->)|subst g']; reflexivity).
    eapply last_proper_kinw; eassumption.
  - pose proof (move_on_ok _ _ _ _ _ _ _ _ _ I C M) as D.
    assert (n0 : n = 0%nat -> fs = []).
    { intros ->. destruct D as [(_ & X & _)|(N2 & _ & _ & new & _ & [[_ X]|(_ & X & _)] & _)]; lia. }
    cbn [g_frames]. pose proof (finish_ok _ _ _ _ _ _ _ _ _ _ _ _ n0 F) as (N1 & LN & _).
    eapply finish_last; [exact DU|exact n0| |exact F].
    destruct D as [(G1 & -> & nf & f & GN & -> & KN & _)|(N2 & GN & -> & new & K0 & D & fl & n' & HL & CL)].
    + rewrite GN in NE. destruct NE as [Pn _]. exists [], f. split; [reflexivity|]. eapply kinw_proper; eassumption.
    + pose proof (create_loop_chain _ _ _ _ _ TY _ _ _ _ _ _ _ CL) as (new0 & E0 & P0 & _).
      apply app_inv_head in E0. subst new0.
      apply Forall_last; [eapply kinws_proper; [exact K0|apply Forall_app; auto]|]. intros ->. cbn in LN. lia.
Qed.

(* the target is the end of the last frame, and the goal if that is where it ends *)
Lemma target_end w o start ins s g : o_ftype o = Some Corridor -> w_dubins w = false ->
  execute w (Some o) start ins = Ok (s, g) ->
  exists fs f p, g_frames g = fs ++ [f] /\ f_endpoint (sf f) = Some p /\ g_target g = Some (AtPoint p).
Proof.
  intros TY DU H. pose proof (world_execute _ _ _ _ _ _ H) as W. subst w.
  destruct (target_aims _ _ _ _ _ _ H) as (fs & f & tg & EF & ET & A).
  assert (last_proper (g_frames g)) as (l & f' & EF' & [PL PN]).
  { apply execute_cases in H. destruct H as (g0 & g1 & A0 & B & C).
    apply init_fresh in A0. destruct A0 as (o' & [= <-] & _ & TS & _ & _ & F & N & _ & _ & FX).
    rewrite TY in TS. cbn in TS.
    assert (I1 : inv s (g_n g0) g1).
    { eapply reinit_inv; [exact F| |exact B].
      intros X. specialize (FX X). destruct (g_n g0) as [|[|k]] eqn:E; [|reflexivity|lia].
      exfalso. eapply reinit_n0; [exact F|exact E|exact B]. }
    pose proof (proj1 (reinit_cinv _ _ _ _ _ TS F B)) as C1.
    pose proof (reinit_last _ _ _ _ _ DU TS F B) as L1. clear - DU TS I1 C1 L1 C.
    revert g1 I1 C1 L1 C. induction ins as [|i ins IH]; intros g1 I1 C1 L1 C; cbn in C.
    - injection C as <-. exact L1.
    - ib C r E. destruct r as [g2 b]. eapply IH; [| | |exact C].
      + eapply solve_inv; eassumption.
      + eapply solve_cinv; eassumption.
      + eapply solve_last; eassumption. }
  rewrite EF in EF'. apply app_inj_tail in EF'. destruct EF' as [<- <-].
  unfold last_wp in PL. destruct (rev (f_waypoints (sf f))) as [|w1 ws] eqn:ER; [discriminate|]. injection PL as ->.
  apply rev_cons in ER. destruct (f_endpoint (sf f)) as [p|] eqn:EP; [|congruence].
  exists fs, f, p. split; [exact EF|]. split; [exact EP|]. rewrite ET. f_equal.
  unfold aims in A. rewrite DU in A. destruct tg as [q|q d|].
  - destruct A as [_ [ws' E]]. rewrite ER in E. apply app_inj_tail in E. destruct E as [_ [= <-]]. reflexivity.
  - destruct A as [A _]. discriminate.
  - destruct A as [A _]. discriminate.
Qed.
