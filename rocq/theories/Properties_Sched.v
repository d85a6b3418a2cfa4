(** The scheduler problem (C58, C100-C103). *)
From Coq Require Import QArith Qabs ZArith List Bool Arith Lia Lqa.
From Verif Require Import Frame_Model Frame_Spec Frame_Proofs4 Frame_Proofs6 Sched_Model Sched_Spec Sched_Proofs2 Sched_Proofs3
  Sched_Proofs4 Sched_Proofs5 Sched_Proofs6 Sched_Proofs7 Sched_Proofs8.
Import ListNotations.
Local Open Scope Q_scope.

(* the vehicle at the start, at the corner, and the free way around the block *)
Definition here := at_pos (-8, -8) [block].
Definition turn := at_pos (8, -8) [block].
(* run the scheduler with n frames *)
Ltac exe E n ins := destruct (execute (corner false) (Some (opts n false)) here ins) as [[s g]|] eqn:E;
  [|vm_compute in E; discriminate].
(* and solve once more *)
Ltac more E F i := match type of E with _ = Ok (?s, ?g) =>
  destruct (solve s (i_curr i) (i_obs i) (i_T i) g) as [[g' b]|] eqn:F;
  [|vm_compute in E; injection E as <- <-; vm_compute in F; discriminate] end.
Ltac numbers E := vm_compute in E; injection E as <- <-.
Lemma done {A} (r : res A) : match r with Ok _ => true | Err _ => false end = true -> exists x, r = Ok x.
Proof. destruct r; [eauto|discriminate]. Qed.
Lemma block_followed : followed [block].
Proof. intros o [<-|[]]. split; reflexivity. Qed.

(* as many frames as the scheduler looks at, at least one and at most the number asked for; the local problem has one room for each of them, with its limits *)
Theorem C58_window : forall w o start ins s g, execute w (Some o) start ins = Ok (s, g) ->
  window (opt (o_nframes o) 1%nat) g /\ rooms_match g.
Proof. exact window_kept. Qed.
Example C58_window_ex : exists s g, execute (corner false) (Some (opts 2 false)) here [here; turn] = Ok (s, g) /\ window 2 g /\ rooms_match g.
Proof. exe E 2%nat [here; turn]. exists s, g. split; [reflexivity|]. exact (C58_window _ _ _ _ _ _ E). Qed.
Print Assumptions C58_window.

(* at the start one frame fewer at most *)
Theorem C58_count : forall w o start s g, execute w (Some o) start [] = Ok (s, g) ->
  length (g_frames g) = opt (o_nframes o) 1%nat \/ S (length (g_frames g)) = opt (o_nframes o) 1%nat.
Proof. exact frame_count. Qed.
Example C58_count_ex : exists s g, execute (corner false) (Some (opts 3 false)) here [] = Ok (s, g) /\ length (g_frames g) = 2%nat.
Proof. exe E 3%nat (@nil input). exists s, g. split; [reflexivity|]. pose proof (C58_count _ _ _ _ _ E) as [H|H]; [|cbn in H; lia].
  numbers E. reflexivity. Qed.
Print Assumptions C58_count.

(* every frame starts where the one before it ends *)
Theorem C58_chain : forall w o start ins s g, o_ftype o = Some Corridor -> execute w (Some o) start ins = Ok (s, g) ->
  chain (g_frames g) /\
  (forall nf f, g_next g = Some (Some nf) -> In f (g_frames g) -> follows f nf).
Proof. exact frames_chained. Qed.
Example C58_chain_ex : exists s g f nf, execute (corner false) (Some (opts 1 false)) here [] = Ok (s, g) /\ g_next g = Some (Some nf) /\ In f (g_frames g) /\ follows f nf.
Proof. exe E 1%nat (@nil input). pose proof (proj2 (C58_chain _ (opts 1 false) _ _ _ _ eq_refl E)) as H.
  destruct (g_next g) as [[nf|]|] eqn:G; [|numbers E; discriminate..].
  destruct (g_frames g) as [|f fs] eqn:F; [numbers E; discriminate|].
  exists s, g, f, nf. split; [reflexivity|]. split; [exact G|]. rewrite F. split; [left; reflexivity|].
  apply H; [reflexivity|left; reflexivity]. Qed.
Print Assumptions C58_chain.

(* the first one starts at the vehicle *)
Theorem C58_start : forall w o start s g, o_ftype o = Some Corridor -> execute w (Some o) start [] = Ok (s, g) ->
  exists f fs, g_frames g = f :: fs /\ f_start (sf f) = i_curr start.
Proof. exact first_start. Qed.
Example C58_start_ex : exists s g f fs, execute (corner false) (Some (opts 2 false)) here [] = Ok (s, g) /\ g_frames g = f :: fs /\ f_start (sf f) = (-8, -8).
Proof. exe E 2%nat (@nil input). destruct (C58_start _ (opts 2 false) _ _ _ eq_refl E) as (f & fs & A & B). exists s, g, f, fs. auto. Qed.
Print Assumptions C58_start.

(* when there are fewer frames than asked for, the last one ends at the goal *)
Theorem C58_end : forall w o start ins s g, o_ftype o = Some Corridor -> execute w (Some o) start ins = Ok (s, g) ->
  (g_n g < opt (o_nframes o) 1%nat)%nat \/ g_next g = Some None ->
  exists fs f, g_frames g = fs ++ [f] /\ ends_in f (w_goal w).
Proof. exact short_at_goal. Qed.
Example C58_end_ex : exists s g fs f, execute (corner false) (Some (opts 2 false)) here [here; turn] = Ok (s, g) /\ g_frames g = fs ++ [f] /\ ends_in f (8, 9).
Proof. exe E 2%nat [here; turn]. destruct (C58_end _ (opts 2 false) _ _ _ _ eq_refl E) as (fs & f & A & B).
  - left. numbers E. vm_compute. lia.
  - exists s, g, fs, f. auto. Qed.
Print Assumptions C58_end.

(* moving on: the first frame is dropped, the vehicle is deep inside the next one, at most one frame is new *)
Theorem C58_switch : forall w o start ins s g, opt (o_lshape o) false = false ->
  execute w (Some o) start ins = Ok (s, g) ->
  forall curr obs T g' b, solve s curr obs T g = Ok (g', b) -> g_cnt g' <> g_cnt g ->
  g_cnt g' = S (g_cnt g) /\ b = true /\
  exists f0 ahead new, g_frames g = f0 :: ahead /\ (length new <= 1)%nat /\
    (exists l ls, map lims (g_frames g') = l :: ls /\ deep l (w_veh w) curr) /\
    ((ahead <> [] /\ map lims (g_frames g') = map lims ahead ++ new) \/
     (ahead = [] /\ exists nf, g_next g = Some (Some nf) /\ map lims (g_frames g') = [lims nf])).
Proof. exact reach_switch. Qed.
Example C58_switch_ex : exists s g g' b l ls, execute (corner false) (Some (opts 2 false)) here [here] = Ok (s, g) /\
  solve s (8, -8) [block] (fun _ => 10) g = Ok (g', b) /\ map lims (g_frames g') = l :: ls /\ deep l (1 # 2) (8, -8).
Proof. exe E 2%nat [here]. more E F turn.
  destruct (C58_switch _ (opts 2 false) _ _ _ _ eq_refl E _ _ _ _ _ F) as (_ & _ & f0 & ah & new & _ & _ & (l & ls & A & B) & _).
  - numbers E. vm_compute in F. injection F as <- _. vm_compute. discriminate.
  - exists s, g, g', b, l, ls. auto. Qed.
Print Assumptions C58_switch.

(* the frames stay the same as long as the goal is in the first frame or the vehicle is not deep inside the next one *)
Theorem C58_stay : forall w o start ins s g, execute w (Some o) start ins = Ok (s, g) ->
  forall curr obs T g' b, solve s curr obs T g = Ok (g', b) ->
  (forall f0 fs f1, g_frames g = f0 :: fs -> hd_error fs = Some f1 \/ g_next g = Some (Some f1) ->
     interior (lims f0) (w_goal w) \/ ~ deep (lims f1) (w_veh w) curr) ->
  g_cnt g' = g_cnt g /\ map lims (g_frames g') = map lims (g_frames g) /\ g_n g' = g_n g /\ g_next g' = g_next g /\
  g_target g' = g_target g.
Proof. exact reach_stay. Qed.
Example C58_stay_ex : exists s g g' b, execute (corner false) (Some (opts 2 false)) here [here] = Ok (s, g) /\
  solve s (-8, -8) [block] (fun _ => 10) g = Ok (g', b) /\ map lims (g_frames g') = map lims (g_frames g).
Proof. exe E 2%nat [here]. more E F here. exists s, g, g', b. split; [reflexivity|]. split; [exact F|].
  apply (C58_stay _ _ _ _ _ _ E _ _ _ _ _ F). intros f0 fs f1 A B. right.
  numbers E. cbn [g_frames g_next] in A, B. injection A as <- <-. destruct B as [B|B]; [|discriminate]. cbn in B. injection B as <-.
  unfold deep, lims. vm_compute. intros [[X _] _]. discriminate. Qed.
Print Assumptions C58_stay.

(* the motion stops exactly when the local problem stops in a frame that ends at the goal *)
Theorem C58_stop : forall w o start ins s g inner, o_ftype o = Some Corridor -> execute w (Some o) start ins = Ok (s, g) ->
  exists fs f, g_frames g = fs ++ [f] /\
    (stop_criterium s g inner = Ok (Some true) <-> ends_in f (w_goal w) /\ inner = true).
Proof. exact stop_iff. Qed.
Example C58_stop_ex : exists s g fs f, execute (corner false) (Some (opts 2 false)) here [here; turn] = Ok (s, g) /\ g_frames g = fs ++ [f] /\
  (stop_criterium s g true = Ok (Some true) <-> ends_in f (8, 9) /\ true = true).
Proof. exe E 2%nat [here; turn]. destruct (C58_stop _ (opts 2 false) _ _ _ _ true eq_refl E) as (fs & f & A & B). exists s, g, fs, f. auto. Qed.
Print Assumptions C58_stop.

(* at the start every room of the local problem has the obstacles of its frame *)
Theorem C100_start : forall w o start s g, execute w (Some o) start [] = Ok (s, g) -> obstacles_match g.
Proof. exact start_match. Qed.
Example C100_start_ex : exists s g, execute (corner false) (Some (opts 2 false)) here [] = Ok (s, g) /\ obstacles_match g.
Proof. exe E 2%nat (@nil input). exists s, g. split; [reflexivity|]. exact (C100_start _ _ _ _ _ E). Qed.
Print Assumptions C100_start.

(* and each time the vehicle moves on *)
Theorem C100_switch : forall w o start ins s g, execute w (Some o) start ins = Ok (s, g) ->
  forall curr obs T g' b, solve s curr obs T g = Ok (g', b) -> g_cnt g' <> g_cnt g -> obstacles_match g'.
Proof. exact reach_switch_match. Qed.
Example C100_switch_ex : exists s g g' b, execute (corner false) (Some (opts 2 false)) here [here] = Ok (s, g) /\
  solve s (8, -8) [block] (fun _ => 10) g = Ok (g', b) /\ obstacles_match g'.
Proof. exe E 2%nat [here]. more E F turn. exists s, g, g', b. split; [reflexivity|]. split; [exact F|].
  apply (C100_switch _ _ _ _ _ _ E _ _ _ _ _ F). numbers E. vm_compute in F. injection F as <- _. vm_compute. discriminate. Qed.
Print Assumptions C100_switch.

(* with one frame they always agree *)
Theorem C100_one : forall w o start ins s g, opt (o_nframes o) 1%nat = 1%nat ->
  execute w (Some o) start ins = Ok (s, g) -> obstacles_match g.
Proof. exact one_frame_match. Qed.
Example C100_one_ex : exists s g, execute (corner false) (Some (opts 1 false)) here [here; turn] = Ok (s, g) /\ obstacles_match g.
Proof. exe E 1%nat [here; turn]. exists s, g. split; [reflexivity|]. exact (C100_one _ (opts 1 false) _ _ _ _ eq_refl E). Qed.
Print Assumptions C100_one.

(* after each solve every frame lists the obstacles that pass through it in the remaining time *)
Theorem C100_listed : forall w o start ins s g, execute w (Some o) start ins = Ok (s, g) ->
  0 < s_ts s -> forall curr obs T g' b, followed obs -> (forall k, 0 <= remaining s T k) ->
  solve s curr obs T g = Ok (g', b) -> g_cnt g' = g_cnt g ->
  forall k f x, nth_error (g_frames g') k = Some f ->
    (In x (s_moving f) <-> passing (lims f) (s_ts s) (remaining s T k) obs x).
Proof. exact reach_recorded. Qed.
Example C100_listed_ex : exists s g g' b f, execute (corner false) (Some (opts 2 false)) here [here] = Ok (s, g) /\
  solve s (-8, -8) [block] (fun _ => 10) g = Ok (g', b) /\ nth_error (g_frames g') 0 = Some f /\
  (In 7%nat (s_moving f) <-> passing (lims f) (s_ts s) (remaining s (fun _ => 10) 0) [block] 7).
Proof. exe E 2%nat [here]. more E F here. destruct (nth_error (g_frames g') 0) as [f|] eqn:G.
  - exists s, g, g', b, f. split; [reflexivity|]. split; [exact F|]. split; [exact G|].
    apply (C100_listed _ _ _ _ _ _ E) with (4 := F) (6 := G).
    + numbers E. reflexivity.
    + exact block_followed.
    + intros k. numbers E. vm_compute. discriminate.
    + numbers E. vm_compute in F. injection F as <- _. reflexivity.
  - numbers E. vm_compute in F. injection F as <- _. discriminate. Qed.
Print Assumptions C100_listed.

(* but the local problem is made again exactly when the list of the last frame changed, and keeps its old rooms otherwise *)
Theorem C100_rebuild : forall w o start ins s g, execute w (Some o) start ins = Ok (s, g) ->
  0 < s_ts s -> forall curr obs T g' b fs f, followed obs -> (forall k, 0 <= remaining s T k) ->
  solve s curr obs T g = Ok (g', b) -> g_cnt g' = g_cnt g -> g_frames g = fs ++ [f] ->
  (b = true <-> ~ (forall x, In x (s_moving f) <-> passing (lims f) (s_ts s) (remaining s T (length fs)) obs x)) /\
  (b = true -> obstacles_match g') /\ (b = false -> g_rooms g' = g_rooms g).
Proof. exact reach_rebuild. Qed.
Example C100_rebuild_ex : exists s g g' b, execute (corner false) (Some (opts 2 false)) here [here] = Ok (s, g) /\
  solve s (-8, -8) [block] (fun _ => 10) g = Ok (g', b) /\ (b = false -> g_rooms g' = g_rooms g).
Proof. exe E 2%nat [here]. more E F here. exists s, g, g', b. split; [reflexivity|]. split; [exact F|].
  destruct (last_split (g_frames g)) as (fs & f & G); [numbers E; discriminate|].
  apply (C100_rebuild _ _ _ _ _ _ E) with (4 := F) (6 := G).
  - numbers E. reflexivity.
  - exact block_followed.
  - intros k. numbers E. vm_compute. discriminate.
  - numbers E. vm_compute in F. injection F as <- _. reflexivity. Qed.
Print Assumptions C100_rebuild.

(* so an obstacle that starts to move in the first one of two frames is never avoided *)
Theorem C100_ignored_refuted : exists w o start i s g, forall n,
  execute w (Some o) start (repeat i (S n)) = Ok (s, g) /\ guard_seen g /\ ~ guard_avoided g /\ ~ obstacles_match g.
Proof. exact ignored_refuted. Qed.
Print Assumptions C100_ignored_refuted.

(* without options *)
Theorem C101_no_options : forall w start ins, execute w None start ins = Err TypeError.
Proof. exact no_options. Qed.
Example C101_no_options_ex : execute (corner false) None here [here] = Err TypeError.
Proof. apply C101_no_options. Qed.
Print Assumptions C101_no_options.

(* more than one frame with a fixed time *)
Theorem C101_fixed_time : forall w o start ins, o_freeT o = Some false -> (1 < opt (o_nframes o) 1)%nat ->
  execute w (Some o) start ins = Err ValueError.
Proof. exact fixed_time. Qed.
Example C101_fixed_time_ex : execute (corner false) (Some (Options (Some false) (Some 2%nat) (Some Corridor) None None (Some true) None None)) here [] = Err ValueError.
Proof. apply C101_fixed_time; [reflexivity|cbn; lia]. Qed.
Print Assumptions C101_fixed_time.

(* corridor frames without scale_up_fine in the options of the user *)
Theorem C101_fine : forall w o start ins, o_ftype o = Some Corridor -> o_fine o = None ->
  (1 <= opt (o_nframes o) 1)%nat -> opt (o_freeT o) true = true \/ (opt (o_nframes o) 1 <= 1)%nat ->
  execute w (Some o) start ins = Err KeyError.
Proof. exact corridor_needs_fine. Qed.
Example C101_fine_ex : execute (corner false) (Some (Options None (Some 2%nat) (Some Corridor) None None None None None)) here [] = Err KeyError.
Proof. apply C101_fine; [reflexivity|reflexivity|cbn; lia|left; reflexivity]. Qed.
Print Assumptions C101_fine.

(* frames of another type *)
Theorem C101_type : forall w o start ins, o_ftype o = Some OtherType ->
  (1 <= opt (o_nframes o) 1)%nat -> opt (o_freeT o) true = true \/ (opt (o_nframes o) 1 <= 1)%nat ->
  execute w (Some o) start ins = Err RuntimeError.
Proof. exact other_type. Qed.
Example C101_type_ex : execute (corner false) (Some (Options None (Some 2%nat) (Some OtherType) None None (Some true) None None)) here [] = Err RuntimeError.
Proof. apply C101_type; [reflexivity|cbn; lia|left; reflexivity]. Qed.
Print Assumptions C101_type.

(* shift frames, the default, with one frame, the default *)
Theorem C101_default : forall w o start ins r, opt (o_ftype o) Shift = Shift -> opt (o_nframes o) 1%nat = 1%nat ->
  goal_ends (w_planner0 w ++ [w_goal w]) (w_goal w) -> execute w (Some o) start ins <> Ok r.
Proof. exact default_never_starts. Qed.
Example C101_default_ex : forall r, execute (corner false) (Some (Options None None None None None None None None)) here [] <> Ok r.
Proof. intros r. apply C101_default; [reflexivity|reflexivity|].
  intros a q b p E G I. cbn in E. destruct G as [G1 G2].
  repeat (destruct a as [|? a]; [injection E as <- <-; cbn in I, G1, G2; try (exfalso; lra); contradiction|injection E as _ E]).
  destruct a; discriminate. Qed.
Print Assumptions C101_default.

(* shift frames work only with two frames and never stop *)
Theorem C101_shift : forall w o start ins s g inner, opt (o_ftype o) Shift = Shift ->
  goal_ends (w_planner0 w ++ [w_goal w]) (w_goal w) -> execute w (Some o) start ins = Ok (s, g) ->
  opt (o_nframes o) 1%nat = 2%nat /\ stop_criterium s g inner = Ok (Some false).
Proof. exact shift_never_stops. Qed.
Example C101_shift_ex : exists w o start s g, opt (o_ftype o) Shift = Shift /\ execute w (Some o) start [] = Ok (s, g) /\ stop_criterium s g true = Ok (Some false).
Proof.
  exists (World (1 # 2) 20 20 (0, 0) (4, 0) [(0, 0)] (fun _ => [(0, 0)]) false 1 qsqrt 10 200%nat),
    (Options None (Some 2%nat) None (Some 6) None None None None), (at_pos (0, 0) []).
  destruct (execute (World (1 # 2) 20 20 (0, 0) (4, 0) [(0, 0)] (fun _ => [(0, 0)]) false 1 qsqrt 10 200%nat)
    (Some (Options None (Some 2%nat) None (Some 6) None None None None)) (at_pos (0, 0) []) []) as [[s g]|] eqn:E;
    [|vm_compute in E; discriminate].
  exists s, g. split; [reflexivity|]. split; [reflexivity|].
  apply (C101_shift _ (Options None (Some 2%nat) None (Some 6) None None None None) _ _ _ _ true eq_refl) with (2 := E).
  intros a q b p X G I. cbn in X. destruct G as [G1 G2].
  repeat (destruct a as [|? a]; [injection X as <- <-; cbn in I, G1, G2; try (exfalso; lra); contradiction|injection X as _ X]).
  destruct a; discriminate. Qed.
Print Assumptions C101_shift.

(* three frames or more when the goal is in the first one *)
Theorem C101_near : forall w o start ins s f r, o_ftype o = Some Corridor -> (3 <= opt (o_nframes o) 1)%nat ->
  sched_init w (Some o) (i_curr start) = Ok (s, r) ->
  make_frame s (i_obs start) (i_curr start) (w_planner0 w ++ [w_goal w]) = Ok f -> ends_in f (w_goal w) ->
  forall x, execute w (Some o) start ins <> Ok x.
Proof. exact near_goal. Qed.
Example C101_near_ex : forall x, execute yard (Some (opts 3 false)) (at_pos (-8, 0) []) [] <> Ok x.
Proof.
  destruct (done (sched_init yard (Some (opts 3 false)) (-8, 0)) ltac:(vm_compute; reflexivity)) as [[s r] E].
  destruct (done (make_frame s [] (-8, 0) (w_planner0 yard ++ [w_goal yard]))) as [f F];
    [vm_compute in E; injection E as <- _; vm_compute; reflexivity|].
  apply (C101_near yard (opts 3 false) (at_pos (-8, 0) []) [] s f r eq_refl); [cbn; lia|exact E|exact F|].
  vm_compute in E. injection E as <- _. vm_compute in F. injection F as <-. eexists. split; [reflexivity|]. split; reflexivity. Qed.
Print Assumptions C101_near.

(* L-shapes with one frame when the goal is in it *)
Theorem C101_lshape : forall w o start ins s f r, o_ftype o = Some Corridor -> opt (o_nframes o) 1%nat = 1%nat -> o_lshape o = Some true ->
  sched_init w (Some o) (i_curr start) = Ok (s, r) ->
  make_frame s (i_obs start) (i_curr start) (w_planner0 w ++ [w_goal w]) = Ok f -> ends_in f (w_goal w) ->
  execute w (Some o) start ins = Err AttributeError.
Proof. exact lshape_goal. Qed.
Example C101_lshape_ex : execute yard (Some (opts 1 true)) (at_pos (-8, 0) []) [] = Err AttributeError.
Proof.
  destruct (done (sched_init yard (Some (opts 1 true)) (-8, 0)) ltac:(vm_compute; reflexivity)) as [[s r] E].
  destruct (done (make_frame s [] (-8, 0) (w_planner0 yard ++ [w_goal yard]))) as [f F];
    [vm_compute in E; injection E as <- _; vm_compute; reflexivity|].
  apply (C101_lshape yard (opts 1 true) (at_pos (-8, 0) []) [] s f r eq_refl eq_refl eq_refl); [exact E|exact F|].
  vm_compute in E. injection E as <- _. vm_compute in F. injection F as <-. eexists. split; [reflexivity|]. split; reflexivity. Qed.
Print Assumptions C101_lshape.

(* a vehicle that stands at its goal cannot start either *)
Theorem C101_at_goal_refuted : exists w o start, o_ftype o = Some Corridor /\ pt_eq (i_curr start) (w_goal w) /\
  forall ins, execute w (Some o) start ins = Err RuntimeError.
Proof. exact at_goal_refuted. Qed.
Print Assumptions C101_at_goal_refuted.

(* at the start: the time for the straight line from the first to the last waypoint of the frame at half the maximum speed; the first waypoint of the first frame is the position of the vehicle *)
Theorem C102_start : forall w o start s g, execute w (Some o) start [] = Ok (s, g) ->
  respects (w_sqrt w) -> ~ w_vmax w == 0 ->
  forall k f t, nth_error (g_frames g) k = Some f -> nth_error (g_times g) k = Some t ->
    straight s (f_waypoints (sf f)) t /\
    (k = 0%nat -> exists ws, f_waypoints (sf f) = Some (i_curr start) :: ws).
Proof. exact start_times. Qed.
Example C102_start_ex : exists s g f t, execute (corner false) (Some (opts 2 false)) here [] = Ok (s, g) /\ nth_error (g_frames g) 0 = Some f /\
  nth_error (g_times g) 0 = Some t /\ straight s (f_waypoints (sf f)) t.
Proof. exe E 2%nat (@nil input). destruct (nth_error (g_frames g) 0) as [f|] eqn:F; [|numbers E; discriminate].
  destruct (nth_error (g_times g) 0) as [t|] eqn:G; [|numbers E; discriminate].
  exists s, g, f, t. split; [reflexivity|]. split; [exact F|]. split; [exact G|].
  apply (C102_start _ _ _ _ _ E qsqrt_respects) with (2 := F) (3 := G). cbn. lra. Qed.
Print Assumptions C102_start.

(* when the vehicle moves on: the remaining times of the first two frames together, the solved times of the next ones, and the straight line for the new one *)
Theorem C102_switch : forall w o start ins s g, execute w (Some o) start ins = Ok (s, g) -> ins <> [] ->
  respects (w_sqrt w) -> ~ w_vmax w == 0 ->
  forall curr obs T g' b, solve s curr obs T g = Ok (g', b) -> g_cnt g' <> g_cnt g ->
  exists ts t fs f, g_times g' = ts ++ [t] /\ g_frames g' = fs ++ [f] /\
    straight s (f_waypoints (sf f)) t /\ length ts = (g_n g' - 1)%nat /\
    (forall x, nth_error ts 0 = Some x -> x = T 0%nat + T 1%nat) /\
    (forall k x, (1 <= k)%nat -> nth_error ts k = Some x -> x = T (S k)).
Proof. exact reach_switch_times. Qed.
Example C102_switch_ex : exists s g g' b ts t, execute (corner false) (Some (opts 2 false)) here [here] = Ok (s, g) /\
  solve s (8, -8) [block] (fun _ => 10) g = Ok (g', b) /\ g_times g' = ts ++ [t].
Proof. exe E 2%nat [here]. more E F turn.
  destruct (C102_switch _ _ _ _ _ _ E ltac:(discriminate) qsqrt_respects ltac:(cbn; lra) _ _ _ _ _ F) as (ts & t & fs & f & A & _).
  - numbers E. vm_compute in F. injection F as <- _. vm_compute. discriminate.
  - exists s, g, g', b, ts, t. auto. Qed.
Print Assumptions C102_switch.

(* for a holonomic vehicle there is no time exactly when the waypoints end where they begin *)
Theorem C102_closed : forall s p ps, w_dubins (s_world s) = false ->
  guess_time s (map Some (p :: ps)) = Err RuntimeError <-> pt_eq (last (p :: ps) p) p.
Proof. exact guess_closed. Qed.
Example C102_closed_ex : exists s g, sched_init (corner false) (Some (opts 2 false)) (0, 0) = Ok (s, g) /\
  guess_time s [Some (0, 0); Some (3, 0); Some (0, 0)] = Err RuntimeError.
Proof.
  destruct (sched_init (corner false) (Some (opts 2 false)) (0, 0)) as [[s g]|] eqn:E; [|vm_compute in E; discriminate].
  exists s, g. split; [reflexivity|]. apply (C102_closed s (0, 0) [(3, 0); (0, 0)]).
  - vm_compute in E. injection E as <- _. reflexivity.
  - split; reflexivity.
Qed.
Print Assumptions C102_closed.

(* the time can be twenty times too short for the way along the waypoints at full speed *)
Theorem C102_short_refuted : exists w o start s g f t ps,
  execute w (Some o) start [] = Ok (s, g) /\ g_frames g = [f] /\ g_times g = [t] /\
  f_waypoints (sf f) = map Some ps /\ t * w_vmax w < (1 # 20) * way ps.
Proof. exact short_time_refuted. Qed.
Print Assumptions C102_short_refuted.

(* the local problem always has a target, made of the waypoints of the last frame and of the next one *)
Theorem C103_target : forall w o start ins s g, execute w (Some o) start ins = Ok (s, g) ->
  exists fs f tg, g_frames g = fs ++ [f] /\ g_target g = Some tg /\ aims s (g_next g) f tg.
Proof. exact target_aims. Qed.
Example C103_target_ex : exists s g fs f tg, execute (corner true) (Some (opts 1 false)) here [] = Ok (s, g) /\ g_frames g = fs ++ [f] /\
  g_target g = Some tg /\ aims s (g_next g) f tg.
Proof.
  destruct (done (execute (corner true) (Some (opts 1 false)) here []) ltac:(vm_compute; reflexivity)) as [[s g] E].
  destruct (C103_target _ _ _ _ _ _ E) as (fs & f & tg & A & B & C). exists s, g, fs, f, tg. auto. Qed.
Print Assumptions C103_target.

(* for corridors and a vehicle without heading it is the end of the last frame *)
Theorem C103_end : forall w o start ins s g, o_ftype o = Some Corridor -> w_dubins w = false ->
  execute w (Some o) start ins = Ok (s, g) ->
  exists fs f p, g_frames g = fs ++ [f] /\ f_endpoint (sf f) = Some p /\ g_target g = Some (AtPoint p).
Proof. exact target_end. Qed.
Example C103_end_ex : exists s g p, execute (corner false) (Some (opts 2 false)) here [here; turn] = Ok (s, g) /\ g_target g = Some (AtPoint p) /\ pt_eq p (8, 9).
Proof. exe E 2%nat [here; turn]. destruct (C103_end (corner false) (opts 2 false) _ _ _ _ eq_refl eq_refl E) as (fs & f & p & A & B & C).
  exists s, g, p. split; [reflexivity|]. split; [exact C|]. numbers E. cbn in C. injection C as <-. split; reflexivity. Qed.
Print Assumptions C103_end.
