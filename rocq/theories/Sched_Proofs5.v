From Coq Require Import QArith Qabs List Bool Arith Lia Lqa.
From Verif Require Import Frame_Model Frame_Spec Frame_Proofs Frame_Proofs4 Sched_Model Sched_Spec Sched_Proofs Sched_Proofs2
  Sched_Proofs3.
Import ListNotations.
Open Scope Q_scope.

(* ---- which schedulers start ---------------------------------------------- *)

Lemma no_options w start ins : execute w None start ins = Err TypeError.
Proof. reflexivity. Qed.

Lemma first_frame_fails s obs path curr n e : (1 <= n)%nat -> make_frame s obs curr path = Err e ->
  create_frames s obs path curr [] n None = Err e.
Proof.
  intros N H. unfold create_frames. destruct n; [lia|]. cbn [create_loop bind]. rewrite H. reflexivity.
Qed.

Lemma execute_fails w o start ins e :
  (forall s g, sched_init w (Some o) (i_curr start) = Ok (s, g) ->
     create_frames s (i_obs start) (with_goal s (w_planner0 w)) (i_curr start) [] (opt (o_nframes o) 1%nat) None = Err e) ->
  opt (o_freeT o) true = true \/ (opt (o_nframes o) 1 <= 1)%nat ->
  execute w (Some o) start ins = Err e.
Proof.
  intros H FT. unfold execute.
  destruct (sched_init w (Some o) (i_curr start)) as [[s g]|e0] eqn:E.
  - pose proof (init_fresh _ _ _ _ _ E) as (o' & [= <-] & W & _ & _ & _ & [F1 F2] & N & C & _ & _).
    cbn [bind]. unfold reinitialize. rewrite W, F1, F2, N, C. rewrite (H s g eq_refl). reflexivity.
  - exfalso. unfold sched_init in E.
    destruct ((1 <? opt (o_nframes o) 1%nat)%nat && negb (opt (o_freeT o) true)) eqn:X; [|discriminate].
    apply andb_true_iff in X. destruct X as [X Y]. destruct FT as [FT|FT]; [rewrite FT in Y; discriminate Y|].
    apply Nat.ltb_lt in X. lia.
Qed.

(* several frames with a fixed end time *)
Lemma fixed_time w o start ins : o_freeT o = Some false -> (1 < opt (o_nframes o) 1)%nat ->
  execute w (Some o) start ins = Err ValueError.
Proof.
  intros F N. unfold execute, sched_init. rewrite F. cbn [opt negb]. apply Nat.ltb_lt in N. rewrite N. reflexivity.
Qed.

Lemma init_of w o curr s g : sched_init w (Some o) curr = Ok (s, g) ->
  s_type s = opt (o_ftype o) Shift /\ s_fine s = o_fine o /\ s_world s = w.
Proof.
  intros H. apply init_fresh in H. destruct H as (o' & [= <-] & W & A & B & _). auto.
Qed.

(* corridor frames need the option scale_up_fine *)
Lemma corridor_needs_fine w o start ins : o_ftype o = Some Corridor -> o_fine o = None ->
  (1 <= opt (o_nframes o) 1)%nat -> opt (o_freeT o) true = true \/ (opt (o_nframes o) 1 <= 1)%nat ->
  execute w (Some o) start ins = Err KeyError.
Proof.
  intros A B N FT. apply execute_fails; [|exact FT]. intros s g E. apply init_of in E. destruct E as (T & F & _).
  apply first_frame_fails; [exact N|]. unfold make_frame, make_corridor. rewrite T, A, F, B. reflexivity.
Qed.

Lemma other_type w o start ins : o_ftype o = Some OtherType ->
  (1 <= opt (o_nframes o) 1)%nat -> opt (o_freeT o) true = true \/ (opt (o_nframes o) 1 <= 1)%nat ->
  execute w (Some o) start ins = Err RuntimeError.
Proof.
  intros A N FT. apply execute_fails; [|exact FT]. intros s g E. apply init_of in E. destruct E as (T & F & _).
  apply first_frame_fails; [exact N|]. unfold make_frame. rewrite T, A. reflexivity.
Qed.

(* ---- shift frames -------------------------------------------------------- *)

Lemma scan_goal_near c start goal ws : forall e inside d w e' inside' d' g,
  shift_scan c start goal ws e inside d = (w, e', inside', d') -> e' = Some g -> e <> Some g ->
  pt_eq g goal /\ Qabs (fst g - fst start) <= move_limit c + frame_size c * (1 # 2) /\
  Qabs (snd g - snd start) <= move_limit c + frame_size c * (1 # 2).
Proof.
  induction ws as [|p ws IH]; intros e inside d w e' inside' d' g H E N; cbn [shift_scan] in H.
  - congruence.
  - destruct (point_in_frame (start_box c start) p 0); [eapply IH; eauto|]. cbv zeta in H.
    destruct (ltb _ (Qabs (fst p - fst start)) || ltb _ (Qabs (snd p - snd start))) eqn:FAR; [congruence|].
    destruct (pt_eqb p goal) eqn:G; [|eapply IH; eauto].
    destruct e' as [g'|]; [|discriminate]. injection E as ->.
    assert (dec : Some p = Some g \/ Some p <> Some g).
    { destruct (pt_eqb p g) eqn:X.
      - destruct p as [p1 p2], g as [g1 g2].
        destruct (Z.eq_dec (Qnum p1) (Qnum g1)), (Pos.eq_dec (Qden p1) (Qden g1)),
                 (Z.eq_dec (Qnum p2) (Qnum g2)), (Pos.eq_dec (Qden p2) (Qden g2));
          try (right; intros Y; injection Y as -> ->; congruence).
        left. destruct p1, p2, g1, g2; cbn in *; subst; reflexivity.
      - right. intros Y. injection Y as ->. assert (pt_eqb g g = true); [|congruence].
        apply pt_eqb_iff. split; reflexivity. }
    destruct dec as [D|D].
    + injection D as ->. split; [apply pt_eqb_iff, G|].
      apply orb_false_iff in FAR. destruct FAR as [A B]. apply ltb_false in A. apply ltb_false in B. auto.
    + eapply IH; eauto.
Qed.

Lemma skipn_split {A} n (l a : list A) x b : skipn n l = a ++ x :: b -> exists a', l = a' ++ x :: b.
Proof.
  intros E. exists (firstn n l ++ a). rewrite <- app_assoc, <- E. symmetry. apply firstn_skipn.
Qed.

Lemma shift_cases c start path f : shift_frame c start path = Ok f ->
  goal_ends path (last path (0, 0)) ->
  (last (f_waypoints f) None = None /\ f_endpoint f <> None) \/
  (f_endpoint f = None /\ exists g, last (f_waypoints f) None = Some g /\ pt_eq g (last path (0, 0))).
Proof.
  intros H GE. unfold shift_frame in H.
  destruct (find_closest_waypoint c start path) as [idx|] eqn:FC; [|discriminate]. cbn [bind] in H.
  destruct (shift_scan c start (last path (0, 0)) (skipn idx path) None [] None) as [[[w e] inside] d] eqn:SC.
  destruct d as [[dx dy]|]; [|destruct w; discriminate].
  destruct w as [w|].
  - left. ib H ws E1. ib H st E2. injection H as <-. cbn. split; [|discriminate].
    rewrite last_last. destruct e as [g|]; [|reflexivity]. exfalso.
    pose proof (scan_goal_near _ _ _ _ _ _ _ _ _ _ _ g SC eq_refl ltac:(discriminate)) as (G & N1 & N2).
    pose proof (shift_scan_far _ _ _ _ _ _ _ _ _ _ _ SC) as FAR.
    pose proof (shift_scan_goal _ _ _ _ _ _ _ _ _ _ _ SC) as (a & b & WS & [X|[IA _]]); [discriminate|].
    apply in_split in IA. destruct IA as (a1 & a2 & ->).
    rewrite <- app_assoc in WS. cbn in WS. apply skipn_split in WS. destruct WS as (a' & PE).
    assert (pt_eq w (last path (0, 0))) as PW.
    { eapply GE; [exact PE|exact G|]. apply in_or_app. right. now left. }
    destruct G as [G1 G2], PW as [P1 P2]. rewrite G1 in N1. rewrite G2 in N2. rewrite P1, P2 in FAR. lra.
  - right. destruct e as [g|]; [|discriminate]. ib H st E2. injection H as <-. cbn.
    split; [reflexivity|]. exists g. rewrite last_last. split; [reflexivity|].
    apply (scan_goal_near _ _ _ _ _ _ _ _ _ _ _ g SC eq_refl). discriminate.
Qed.

Lemma last_wp_last f w : last_wp f = Ok w -> last (f_waypoints (sf f)) None = w.
Proof.
  unfold last_wp. destruct (rev (f_waypoints (sf f))) as [|x r] eqn:E; [discriminate|]. intros [= <-].
  rewrite <- (rev_involutive (f_waypoints (sf f))), E. cbn. apply last_last.
Qed.

Lemma all_pts_none ws : In None ws -> all_pts ws = Err TypeError.
Proof.
  induction ws as [|w ws IH]; [intros []|]. intros [->|H]; [reflexivity|]. cbn. destruct w; [|reflexivity].
  rewrite IH by exact H. reflexivity.
Qed.

Lemma path_last s path : last (with_goal s path) (0, 0) = w_goal (s_world s).
Proof. unfold with_goal. apply last_last. Qed.

Lemma make_shift s obs p path f : s_type s = Shift -> make_frame s obs p path = Ok f ->
  shift_frame (fcfg s obs) p path = Ok (sf f).
Proof.
  intros TY. unfold make_frame. rewrite TY. intros H. ib H x E. injection H as <-. reflexivity.
Qed.

(* one shift frame: never starts *)
Lemma shift_one s obs path curr : s_type s = Shift -> goal_ends (with_goal s path) (w_goal (s_world s)) ->
  forall fs n next, create_frames s obs (with_goal s path) curr [] 1 None = Ok (fs, n, next) ->
  exists f, fs = [f] /\ n = 1%nat /\ last (f_waypoints (sf f)) None = None.
Proof.
  intros TY GE fs n next H. unfold create_frames in H. cbn [create_loop bind] in H.
  ib H x E. ib E f E1. cbn [app Nat.eqb] in E. ib E nx E2. injection E as <-. ib E2 y E3. injection E2 as <-.
  rewrite l_off in H by (right; congruence). cbn in H. injection H as <- <- <-.
  exists f. split; [reflexivity|]. split; [reflexivity|].
  apply (make_shift _ _ _ _ _ TY) in E1. apply shift_cases in E1; [|rewrite path_last; exact GE].
  destruct E1 as [[E1 _]|[E1 _]]; [exact E1|]. exfalso.
  unfold create_next_frame in E3. rewrite E1, TY in E3. discriminate.
Qed.

Lemma guess_none s curr f fs n next old T : last (f_waypoints (sf f)) None = None -> (1 <= n)%nat ->
  forall r, (n = 1%nat /\ fs = [f] /\ old = None) -> f_waypoints (sf f) <> [] ->
  (length (f_waypoints (sf f)) <> 1%nat) -> get_init_guess s curr fs n next old T <> Ok r.
Proof.
  intros L N r (-> & -> & ->) NE N1 H. unfold get_init_guess in H. ib H x E. cbn in E.
  unfold start_here in E. destruct (f_waypoints (sf f)) as [|w [|w' ws]] eqn:W; [congruence|cbn in N1; congruence|].
  cbn [bind sf f_waypoints] in E.
  unfold guess_time in E. rewrite all_pts_none in E; [discriminate|].
  right. cbn in L. clear - L. revert w' L. induction ws as [|a ws IH]; intros w' L; [left; exact L|right; apply IH, L].
Qed.

Lemma shift_wp_two c start path f : shift_frame c start path = Ok f -> (2 <= length (f_waypoints f))%nat.
Proof.
  intros H. unfold shift_frame in H.
  destruct (find_closest_waypoint c start path) as [idx|] eqn:FC; [|discriminate]. cbn [bind] in H.
  destruct (shift_scan c start (last path (0, 0)) (skipn idx path) None [] None) as [[[w e] inside] d] eqn:SC.
  destruct d as [[dx dy]|]; [|destruct w; discriminate].
  destruct w as [w|].
  - ib H ws E1. ib H st E2. injection H as <-. cbn. rewrite app_length, map_length. cbn.
    apply move_point_some in E1. destruct ws; [congruence|cbn; lia].
  - destruct e as [g|]; [|discriminate]. ib H st E2. injection H as <-. cbn.
    rewrite app_length, map_length, app_length. cbn. lia.
Qed.

Lemma default_never_starts w o start ins r : opt (o_ftype o) Shift = Shift -> opt (o_nframes o) 1%nat = 1%nat ->
  goal_ends (w_planner0 w ++ [w_goal w]) (w_goal w) -> execute w (Some o) start ins <> Ok r.
Proof.
  intros TY N GE H. destruct r as [s g]. apply execute_cases in H. destruct H as (g0 & g1 & A & B & _).
  pose proof (init_of _ _ _ _ _ A) as (TS & _ & W). rewrite TY in TS.
  apply init_fresh in A. destruct A as (o' & [= <-] & _ & _ & _ & _ & [F1 F2] & GN & CU & SO & _).
  apply reinit_finish in B. destruct B as (fs & n & next & fs' & ts & tg & rooms & C & F & ->).
  rewrite F1, F2, GN, N in C. rewrite <- W in GE. fold (with_goal s (w_planner0 (s_world s))) in GE.
  pose proof (shift_one _ _ _ _ TS GE _ _ _ C) as (f & -> & -> & L).
  rewrite SO in F. unfold finish in F. ib F x E.
  assert (2 <= length (f_waypoints (sf f)))%nat as L2.
  { unfold create_frames in C. cbn [create_loop bind] in C. ib C x0 E0. ib E0 f0 E1.
    cbn [app Nat.eqb] in E0. ib E0 nx E2. injection E0 as <-.
    rewrite l_off in C by (right; congruence). cbn in C. assert (f0 = f) as -> by congruence.
    apply (make_shift _ _ _ _ _ TS) in E1. eapply shift_wp_two, E1. }
  eapply (guess_none _ _ f); [exact L| | | | |exact E]; [lia|auto| |].
  - intros Z. rewrite Z in L2. cbn in L2. lia.
  - lia.
Qed.

(* several shift frames: only with two frames, when the first one reaches the goal *)
Lemma shift_many s obs path curr n : s_type s = Shift -> goal_ends (with_goal s path) (w_goal (s_world s)) -> (2 <= n)%nat ->
  forall fs n' next, create_frames s obs (with_goal s path) curr [] n None = Ok (fs, n', next) ->
  exists f, fs = [f] /\ n' = (n - 1)%nat /\ next = None /\ f_endpoint (sf f) = None.
Proof.
  intros TY GE N fs n' next H. unfold create_frames in H. ib H x E. destruct x as [[fs0 n0] next0].
  rewrite l_off in H by (right; congruence). cbn [bind] in H. injection H as <- <- <-.
  destruct n as [|[|n]]; try lia. cbn [create_loop bind] in E.
  ib E f E1. cbn [app Nat.eqb bind] in E. ib E w E2.
  apply (make_shift _ _ _ _ _ TY) in E1. apply shift_cases in E1; [|rewrite path_last; exact GE].
  apply last_wp_last in E2. rewrite path_last in E1. destruct E1 as [[E1 _]|(EN & g & E1 & G)].
  - rewrite E1 in E2. subst w. cbn in E. discriminate.
  - rewrite E1 in E2. subst w. cbn [is_pt] in E.
    assert (pt_eqb g (w_goal (s_world s)) = true) as X by (apply pt_eqb_iff, G). rewrite X in E.
    injection E as <- <- <-. exists f. auto.
Qed.

Lemma shift_never_stops_inv s g : (exists f, g_frames g = [f] /\ f_endpoint (sf f) = None) -> g_n g = 1%nat -> g_next g = None ->
  forall ins g', solves s ins g = Ok g' ->
  exists f, g_frames g' = [f] /\ f_endpoint (sf f) = None.
Proof.
  intros H N NX ins. revert g H N NX. induction ins as [|i ins IH]; intros g (f & EF & EN) N NX g' H; cbn in H.
  - injection H as <-. eauto.
  - ib H r E. destruct r as [g1 b]. apply solve_cases in E.
    destruct E as [(C & fs & ts & TS & CM & D)|(C & _)].
    + rewrite EF in CM. apply compare_ok in CM. destruct CM as (K & _ & _).
      inversion K as [|? f' ? ? Kf Kn]; subst. inversion Kn; subst.
      eapply (IH g1); [| | |exact H]; [exists f'|..];
        (destruct b; [destruct D as (rooms & _ & ->)|subst g1]); cbn; auto;
        (split; [reflexivity|destruct Kf as [(-> & _) _]; exact EN]).
    + exfalso. unfold check_frames in C. rewrite EF, N, NX in C. cbn in C.
      destruct (point_in_frame _ _ _); discriminate.
Qed.

Lemma shift_never_stops w o start ins s g inner : opt (o_ftype o) Shift = Shift ->
  goal_ends (w_planner0 w ++ [w_goal w]) (w_goal w) -> execute w (Some o) start ins = Ok (s, g) ->
  opt (o_nframes o) 1%nat = 2%nat /\ stop_criterium s g inner = Ok (Some false).
Proof.
  intros TY GE H.
  destruct (Nat.eq_dec (opt (o_nframes o) 1%nat) 1) as [N1|N1].
  { exfalso. eapply default_never_starts; eauto. }
  pose proof H as H0. apply execute_cases in H. destruct H as (g0 & g1 & A & B & C0).
  pose proof (init_of _ _ _ _ _ A) as (TS & _ & W). rewrite TY in TS.
  apply init_fresh in A. destruct A as (o' & [= <-] & _ & _ & _ & _ & F12 & GN & CU & SO & _).
  assert (2 <= opt (o_nframes o) 1)%nat as N2.
  { destruct (opt (o_nframes o) 1%nat) as [|[|k]] eqn:EN; [|congruence|lia].
    exfalso. eapply (reinit_n0 _ _ _ _ _ F12); [exact GN|exact B]. }
  destruct F12 as [F1 F2].
  apply reinit_finish in B. destruct B as (fs & n & next & fs' & ts & tg & rooms & C & F & ->).
  rewrite F1, F2, GN in C. rewrite <- W in GE. fold (with_goal s (w_planner0 (s_world s))) in GE.
  pose proof (shift_many _ _ _ _ _ TS GE N2 _ _ _ C) as (f & -> & -> & -> & EN).
  apply finish_ok in F; [|lia]. destruct F as (X & L & L' & _ & _ & _ & K & _). cbn in L.
  inversion K as [|? f' ? ? Kf Kn]; subst. inversion Kn; subst.
  split; [lia|].
  assert (exists q, g_frames g = [q] /\ f_endpoint (sf q) = None) as (q & EQ & ENq).
  { eapply shift_never_stops_inv; [| | |exact C0]; cbn; auto. exists f'. split; [reflexivity|].
    destruct Kf as (-> & _). exact EN. }
  unfold stop_criterium. rewrite EQ. cbn [rev app]. rewrite ENq. reflexivity.
Qed.

(* ---- too many frames ----------------------------------------------------- *)

(* the number of frames asked for is at most one more than there are frames to
   the goal *)
Lemma frame_count w o start s g : execute w (Some o) start [] = Ok (s, g) ->
  length (g_frames g) = opt (o_nframes o) 1%nat \/ S (length (g_frames g)) = opt (o_nframes o) 1%nat.
Proof.
  intros H. pose proof (execute_inv _ _ _ _ _ _ H) as [L B _ _ _ _]. apply execute_cases in H.
  destruct H as (g0 & g1 & A & B' & C). cbn in C. injection C as ->.
  apply init_fresh in A. destruct A as (o' & [= <-] & _ & _ & _ & _ & F & N & _ & _ & FX).
  apply reinit_inv in B'; [|exact F|]. { destruct B' as [_ D]. rewrite N in D. lia. }
  intros X. specialize (FX X). lia.
Qed.

(* the goal in the first frame: three frames or more cannot be asked for *)
Lemma near_goal w o start ins s f r : o_ftype o = Some Corridor -> (3 <= opt (o_nframes o) 1)%nat ->
  sched_init w (Some o) (i_curr start) = Ok (s, r) ->
  make_frame s (i_obs start) (i_curr start) (w_planner0 w ++ [w_goal w]) = Ok f -> ends_in f (w_goal w) ->
  forall x, execute w (Some o) start ins <> Ok x.
Proof.
  intros TY N A MF EN x H. destruct x as [s' g]. apply execute_cases in H. destruct H as (g0 & g1 & A' & B & C0).
  rewrite A in A'. injection A' as <- <-.
  pose proof (init_of _ _ _ _ _ A) as (TS & _ & W). rewrite TY in TS. cbn in TS.
  apply init_fresh in A. destruct A as (o' & [= <-] & _ & _ & _ & _ & [F1 F2] & GN & CU & SO & _).
  apply reinit_finish in B. destruct B as (fs & n & next & fs' & ts & tg & rooms & C & F & ->).
  rewrite F1, F2, GN, CU in C.
  pose proof C as C'. apply first_frames in C'. destruct C' as (fs0 & next0 & CL & _ & K & _ & D & _).
  apply finish_ok in F; [|intros ->; destruct D as [[X Y]|(X & Y & Z & _)]; [|lia]; destruct fs; [reflexivity|cbn in X; lia]].
  destruct F as (_ & L & _). apply kinws_len in K.
  destruct (opt (o_nframes o) 1%nat) as [|[|n0]] eqn:EO; try lia.
  cbn [create_loop bind] in CL. unfold with_goal in CL. rewrite W, MF in CL. cbn [bind app Nat.eqb] in CL.
  assert (goal_last s f) as (u & LU & G).
  { apply ends_goal_last; [|rewrite W; exact EN]. unfold make_frame in MF. rewrite TS in MF.
    apply corridor_proper in MF. apply MF. }
  rewrite LU in CL. cbn [bind] in CL. rewrite W in G. rewrite G in CL. injection CL as <- <- <-. cbn in K. lia.
Qed.

(* L-shapes with one frame that reaches the goal *)
Lemma lshape_goal w o start ins s f r : o_ftype o = Some Corridor -> opt (o_nframes o) 1%nat = 1%nat -> o_lshape o = Some true ->
  sched_init w (Some o) (i_curr start) = Ok (s, r) ->
  make_frame s (i_obs start) (i_curr start) (w_planner0 w ++ [w_goal w]) = Ok f -> ends_in f (w_goal w) ->
  execute w (Some o) start ins = Err AttributeError.
Proof.
  intros TY N LS A MF EN. apply execute_fails; [|right; lia]. intros s' g A'. rewrite A in A'. injection A' as <- <-.
  pose proof (init_of _ _ _ _ _ A) as (TS & _ & W). rewrite TY in TS. cbn in TS.
  pose proof (init_fresh _ _ _ _ _ A) as (o' & [= <-] & _ & _ & _ & LS' & _). rewrite LS in LS'. cbn in LS'.
  rewrite N. unfold create_frames, with_goal. cbn [create_loop bind]. rewrite W, MF. cbn [bind app Nat.eqb].
  unfold create_next_frame. destruct EN as (e & E & G). rewrite E, W. cbn [is_pt].
  assert (pt_eqb e (w_goal w) = true) as X by (apply pt_eqb_iff, G). rewrite X. cbn [bind].
  unfold l_frames. rewrite TS, LS'. reflexivity.
Qed.

(* ---- the end of the run -------------------------------------------------- *)

Lemma stop_iff w o start ins s g inner : o_ftype o = Some Corridor -> execute w (Some o) start ins = Ok (s, g) ->
  exists fs f, g_frames g = fs ++ [f] /\
    (stop_criterium s g inner = Ok (Some true) <-> ends_in f (w_goal w) /\ inner = true).
Proof.
  intros TY H. pose proof (world_execute _ _ _ _ _ _ H) as W.
  pose proof (execute_inv _ _ _ _ _ _ H) as [L B _ _ _ _].
  assert (exists l x, g_frames g = l ++ [x]) as (l & x & E).
  { destruct (g_frames g) as [|y l] eqn:E; [cbn in L; lia|]. destruct (@exists_last _ (y :: l)) as (l' & z & ->); [discriminate|eauto]. }
  exists l, x. split; [exact E|].
  unfold stop_criterium, ends_in. rewrite E, rev_app_distr. cbn [rev app]. rewrite W. split.
  - destruct (f_endpoint (sf x)) as [e|]; cbn [is_pt]; [|discriminate].
    destruct (pt_eqb e (w_goal w)) eqn:G; [|discriminate]. destruct inner; [|discriminate].
    intros _. split; [|reflexivity]. exists e. split; [reflexivity|apply pt_eqb_iff, G].
  - intros [(e & -> & G) ->]. cbn [is_pt]. apply pt_eqb_iff in G. rewrite G. reflexivity.
Qed.
