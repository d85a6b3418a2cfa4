(* The properties of single calls for every state that can be reached, and witnesses. *)
From Coq Require Import QArith Qabs List Bool Arith ZArith Lia Lqa.
From Verif Require Import Frame_Model Frame_Spec Frame_Proofs Frame_Proofs4 Frame_Proofs6 Sched_Model Sched_Spec
  Sched_Proofs Sched_Proofs2 Sched_Proofs3 Sched_Proofs4 Sched_Proofs5 Sched_Proofs6.
Import ListNotations.
Open Scope Q_scope.

Lemma lshape_execute w o start ins s g : execute w (Some o) start ins = Ok (s, g) ->
  s_lshape s = opt (o_lshape o) false.
Proof.
  intros H. apply execute_cases in H. destruct H as (g0 & g1 & A & _).
  apply init_fresh in A. destruct A as (o' & [= <-] & _ & _ & _ & L & _). exact L.
Qed.

Lemma reach_switch w o start ins s g : opt (o_lshape o) false = false ->
  execute w (Some o) start ins = Ok (s, g) ->
  forall curr obs T g' b, solve s curr obs T g = Ok (g', b) -> g_cnt g' <> g_cnt g ->
  g_cnt g' = S (g_cnt g) /\ b = true /\
  exists f0 ahead new, g_frames g = f0 :: ahead /\ (length new <= 1)%nat /\
    (exists l ls, map lims (g_frames g') = l :: ls /\ deep l (w_veh w) curr) /\
    ((ahead <> [] /\ map lims (g_frames g') = map lims ahead ++ new) \/
     (ahead = [] /\ exists nf, g_next g = Some (Some nf) /\ map lims (g_frames g') = [lims nf])).
Proof.
  intros L H curr obs T g' b HS CN. pose proof (world_execute _ _ _ _ _ _ H) as W. subst w.
  eapply switch_inside; [rewrite (lshape_execute _ _ _ _ _ _ H); exact L|exact (execute_inv _ _ _ _ _ _ H)|exact HS|exact CN].
Qed.

Lemma reach_stay w o start ins s g : execute w (Some o) start ins = Ok (s, g) ->
  forall curr obs T g' b, solve s curr obs T g = Ok (g', b) ->
  (forall f0 fs f1, g_frames g = f0 :: fs -> hd_error fs = Some f1 \/ g_next g = Some (Some f1) ->
     interior (lims f0) (w_goal w) \/ ~ deep (lims f1) (w_veh w) curr) ->
  g_cnt g' = g_cnt g /\ map lims (g_frames g') = map lims (g_frames g) /\ g_n g' = g_n g /\ g_next g' = g_next g /\
  g_target g' = g_target g.
Proof.
  intros H curr obs T g' b HS ST. pose proof (world_execute _ _ _ _ _ _ H) as W. subst w.
  assert (g_cnt g' = g_cnt g) as CN.
  { destruct (Nat.eq_dec (g_cnt g') (g_cnt g)) as [|N]; [assumption|].
    destruct (switch_needed _ _ _ _ _ _ _ _ (execute_inv _ _ _ _ _ _ H) HS N) as (f0 & ah & E & NI & f1 & F & D).
    destruct (ST _ _ _ E F); [contradiction|contradiction]. }
  split; [exact CN|]. eapply no_switch; [exact HS|exact CN].
Qed.

Lemma reach_recorded w o start ins s g : execute w (Some o) start ins = Ok (s, g) ->
  0 < s_ts s -> forall curr obs T g' b, followed obs -> (forall k, 0 <= remaining s T k) ->
  solve s curr obs T g = Ok (g', b) -> g_cnt g' = g_cnt g ->
  forall k f x, nth_error (g_frames g') k = Some f ->
    (In x (s_moving f) <-> passing (lims f) (s_ts s) (remaining s T k) obs x).
Proof. intros H TS curr obs T g' b FO R HS CN. exact (recorded _ _ _ _ _ _ _ _ (execute_inv _ _ _ _ _ _ H) TS FO R HS CN). Qed.

Lemma reach_rebuild w o start ins s g : execute w (Some o) start ins = Ok (s, g) ->
  0 < s_ts s -> forall curr obs T g' b fs f, followed obs -> (forall k, 0 <= remaining s T k) ->
  solve s curr obs T g = Ok (g', b) -> g_cnt g' = g_cnt g -> g_frames g = fs ++ [f] ->
  (b = true <-> ~ (forall x, In x (s_moving f) <-> passing (lims f) (s_ts s) (remaining s T (length fs)) obs x)) /\
  (b = true -> obstacles_match g') /\ (b = false -> g_rooms g' = g_rooms g).
Proof.
  intros H TS curr obs T g' b fs f FO R HS CN EF. pose proof (execute_inv _ _ _ _ _ _ H) as I.
  destruct (rebuild_iff _ _ _ _ _ _ _ _ _ _ I TS FO R HS CN EF) as [A B].
  split; [exact A|]. split; [intros ->; eapply rebuilt_match; eassumption|intros ->; apply B; reflexivity].
Qed.

Lemma reach_switch_match w o start ins s g : execute w (Some o) start ins = Ok (s, g) ->
  forall curr obs T g' b, solve s curr obs T g = Ok (g', b) -> g_cnt g' <> g_cnt g -> obstacles_match g'.
Proof.
  intros H curr obs T g' b HS CN. pose proof (execute_inv _ _ _ _ _ _ H) as I.
  assert (b = true) as ->.
  { apply solve_cases in HS. destruct HS as [(_ & ? & ? & _ & _ & D)|(_ & -> & _)]; [|reflexivity].
    exfalso. apply CN. destruct b; [destruct D as (rooms & _ & ->)|subst g']; reflexivity. }
  eapply rebuilt_match; eassumption.
Qed.

Lemma start_match w o start s g : execute w (Some o) start [] = Ok (s, g) -> obstacles_match g.
Proof.
  intros H. apply execute_cases in H. destruct H as (g0 & g1 & A & B & C). cbn in C. injection C as ->.
  apply init_fresh in A. destruct A as (o' & _ & _ & _ & _ & _ & F & _).
  eapply reinit_match; eassumption.
Qed.

Lemma reach_switch_times w o start ins s g : execute w (Some o) start ins = Ok (s, g) -> ins <> [] ->
  respects (w_sqrt w) -> ~ w_vmax w == 0 ->
  forall curr obs T g' b, solve s curr obs T g = Ok (g', b) -> g_cnt g' <> g_cnt g ->
  exists ts t fs f, g_times g' = ts ++ [t] /\ g_frames g' = fs ++ [f] /\
    straight s (f_waypoints (sf f)) t /\ length ts = (g_n g' - 1)%nat /\
    (forall x, nth_error ts 0 = Some x -> x = T 0%nat + T 1%nat) /\
    (forall k x, (1 <= k)%nat -> nth_error ts k = Some x -> x = T (S k)).
Proof.
  intros H NE RS V curr obs T g' b HS CN. pose proof (execute_inv _ _ _ _ _ _ H) as I.
  pose proof (world_execute _ _ _ _ _ _ H) as W. subst w.
  eapply switch_times; try eassumption.
  apply execute_cases in H. destruct H as (g0 & g1 & _ & _ & C). clear - C NE.
  assert (forall ins ga gb, solves s ins ga = Ok gb -> ins <> [] \/ g_solved ga = true -> g_solved gb = true) as X.
  { clear. induction ins as [|i ins IH]; intros ga gb H N; cbn in H.
    - injection H as <-. destruct N; [congruence|assumption].
    - ib H r E. destruct r as [g1 b]. apply (IH _ _ H). right. clear - E.
      apply solve_cases in E. destruct E as [(_ & ? & ? & _ & _ & D)|(_ & _ & R)].
      + destruct b; [destruct D as (rooms & _ & ->)|subst g1]; reflexivity.
      + destruct R as (? & ? & ? & ? & ? & ? & ? & _ & _ & ->). reflexivity. }
  apply (X _ _ _ C). left. exact NE.
Qed.

(* ---- an L-shaped corridor around a block --------------------------------- *)

Definition qsqrt (q : Q) : Q := let r := Qred q in Z.sqrt (Qnum r * Zpos (Qden r)) # (Qden r).
Lemma qsqrt_respects : respects qsqrt.
Proof. intros a b H. unfold qsqrt. rewrite (Qred_complete _ _ H). reflexivity. Qed.

Definition block : obstacle := rect_at 12 12 (0, 0).
Definition route : list pt :=
  [(-8, -8); (-4, -8); (0, -8); (4, -8); (8, -8); (8, -4); (8, 0); (8, 4); (8, 8)].
Definition corner (dub : bool) : world :=
  World (1 # 2) 20 20 (0, 0) (8, 9) route (fun _ => route) dub 1 qsqrt 10 200%nat.
Definition opts (n : nat) (l : bool) : options :=
  Options None (Some n) (Some Corridor) None None (Some true) (Some l) None.
Definition at_pos (p : pt) (o : list obstacle) : input := Input p o (fun _ => 10).
(* a circle near the lower left corner: at first it stands still, then it moves slowly *)
Definition guard (v : pt) : obstacle := Obs 7 (SCirc (1 # 2)) (Some [(0, 0); (0, 1 # 100)]) (-9, -9) v true.

(* The guard begins to move: it is listed in the first frame, but the room of the
   problem never gets it, however often the problem is solved. *)
Definition guard_seen (g : sched) : Prop :=
  exists f, hd_error (g_frames g) = Some f /\ In 7%nat (s_moving f).
Definition guard_avoided (g : sched) : Prop :=
  exists rooms r, g_rooms g = Some rooms /\ In r rooms /\ In 7%nat (r_obs r).

Lemma ignored_refuted : exists w o start i s g, forall n,
  execute w (Some o) start (repeat i (S n)) = Ok (s, g) /\ guard_seen g /\ ~ guard_avoided g /\ ~ obstacles_match g.
Proof.
  set (i := at_pos (-8, -8) [block; guard (0, 1 # 100)]).
  set (start := at_pos (-8, -8) [block; guard (0, 0)]).
  destruct (execute (corner false) (Some (opts 2 false)) start [i]) as [[s g]|] eqn:E;
    [|vm_compute in E; discriminate].
  exists (corner false), (opts 2 false), start, i, s, g.
  pose proof E as E0.
  assert (exists g0, sched_init (corner false) (Some (opts 2 false)) (i_curr start) = Ok (s, g0) /\
    exists g1, reinitialize s (i_obs start) (i_T start) g0 = Ok g1 /\ solves s [i] g1 = Ok g) as (g0 & A & g1 & B & C).
  { apply execute_cases in E0. destruct E0 as (g0 & g1 & A & B & C). eauto. }
  assert (solve s (i_curr i) (i_obs i) (i_T i) g = Ok (g, false)) as FIX.
  { clear - E. vm_compute in E. injection E as <- <-. vm_compute. reflexivity. }
  assert (guard_seen g /\ ~ guard_avoided g) as [G1 G2].
  { clear - E. vm_compute in E. injection E as _ <-. split.
    - eexists. split; [reflexivity|]. vm_compute. auto.
    - intros (rooms & r & [= <-] & I & K). cbn in I. destruct I as [<-|[<-|[]]]; cbn in K; lia. }
  intros n. split; [|split; [exact G1|split; [exact G2|]]].
  - assert (solves s (repeat i n) g = Ok g) as R.
    { clear - FIX. induction n as [|n IH]; [reflexivity|]. cbn [repeat solves]. rewrite FIX. cbn [bind]. exact IH. }
    assert (solves s (repeat i (S n)) g1 = Ok g) as R1.
    { cbn [repeat solves] in *. destruct (solve s (i_curr i) (i_obs i) (i_T i) g1) as [[g2 b]|]; [|discriminate].
      cbn [bind] in *. injection C as ->. exact R. }
    unfold execute. rewrite A. cbn [bind]. rewrite B. cbn [bind]. rewrite R1. reflexivity.
  - intros (rooms & ER & F). apply G2. destruct G1 as (f & EF & IN).
    destruct (g_frames g) as [|f' fs]; [discriminate|]. injection EF as ->.
    inversion F as [|r ? rs ? SE _]; subst. exists (r :: rs), r. split; [exact ER|]. split; [left; reflexivity|].
    apply SE. apply in_or_app. right. exact IN.
Qed.

(* A way that leads back: the motion time is far too short. *)
Definition back : list pt := [(-8, 0); (-8, 8); (8, 8); (8, 0)].
Definition yard : world := World (1 # 2) 20 20 (0, 0) (-7, 0) back (fun _ => back) false 1 qsqrt 10 200%nat.

Lemma short_time_refuted : exists w o start s g f t ps,
  execute w (Some o) start [] = Ok (s, g) /\ g_frames g = [f] /\ g_times g = [t] /\
  f_waypoints (sf f) = map Some ps /\ t * w_vmax w < (1 # 20) * way ps.
Proof.
  destruct (execute yard (Some (opts 1 false)) (at_pos (-8, 0) []) []) as [[s g]|] eqn:E;
    [|vm_compute in E; discriminate].
  exists yard, (opts 1 false), (at_pos (-8, 0) []), s, g.
  vm_compute in E. injection E as <- <-. cbn [g_frames g_times].
  do 2 eexists. exists [(-8, 0); (-8, 8); (8, 8); (8, 0); (-7, 0)]. repeat split.
Qed.

(* the vehicle stands at the goal *)
Lemma at_goal_refuted : exists w o start, o_ftype o = Some Corridor /\ pt_eq (i_curr start) (w_goal w) /\
  forall ins, execute w (Some o) start ins = Err RuntimeError.
Proof.
  exists (World (1 # 2) 20 20 (0, 0) (-8, 0) [(-8, 0)] (fun _ => [(-8, 0)]) false 1 qsqrt 10 200%nat),
    (opts 1 false), (at_pos (-8, 0) []).
  split; [reflexivity|]. split; [split; reflexivity|]. intros ins. reflexivity.
Qed.
