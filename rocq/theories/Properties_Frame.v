(** Frames of the scheduler (C59, C95-C99). *)
From Coq Require Import QArith Qabs Qminmax ZArith List Bool Lqa.
From Verif Require Import Frame_Model Frame_Spec Frame_Proofs Frame_Proofs2 Frame_Proofs3 Frame_Proofs4 Frame_Proofs5 Frame_Proofs6.
Import ListNotations.
Local Open Scope Q_scope.

(* a 10 x 10 room with an obstacle above the vehicle *)
Definition room10 : cfg := plain_env 10 [rect_at 2 1 (0, 3)].
Lemma room10_plain : all_plain (env_obs room10).
Proof. plain_tac. Qed.
Lemma room10_free : free (base_box room10 (0, 0)) (env_obs room10).
Proof. apply (stationary_none _ _ room10_plain). vm_compute. reflexivity. Qed.
Lemma low_plain : all_plain (env_obs low_env).
Proof. plain_tac. Qed.

(* the rectangle stored in a border is the one given by its limits *)
Theorem C59_border : forall xmin ymin xmax ymax p, let b := make_border xmin ymin xmax ymax in
  in_rect (b_width b) (b_height b) (b_pos b) p <-> contains (b_lim b) p.
Proof. exact make_border_region. Qed.
Example C59_border_ex : in_rect 4 2 (b_pos (make_border 1 0 5 2)) (5, 1).
Proof. apply (C59_border 1 0 5 2 (5, 1)). run. Qed.
Print Assumptions C59_border.

(* the limits of the room are those of the rectangle around its position *)
Theorem C59_room : forall c, 0 <= room_w c -> 0 <= room_h c ->
  lim_eq (room_limits c)
    (Lim (fst (room_pos c) - (1 # 2) * room_w c) (snd (room_pos c) - (1 # 2) * room_h c)
         (fst (room_pos c) + (1 # 2) * room_w c) (snd (room_pos c) + (1 # 2) * room_h c)).
Proof. exact room_limits_eq. Qed.
Example C59_room_ex : lim_eq (room_limits (plain_env 10 [])) (Lim (-5) (-5) 5 5).
Proof. pose proof (C59_room (plain_env 10 [])) as H. destruct H as (A & B & C & D); [run|run|].
  cbn in *. unfold lim_eq. cbn. lra. Qed.
Print Assumptions C59_room.

(* a shifted frame does not pass the sides of the room *)
Theorem C59_moved : forall c start dx dy, let l := move_frame c start dx dy in
  xlo (room_limits c) <= xlo l /\ ylo (room_limits c) <= ylo l /\
  xhi l <= xhi (room_limits c) /\ yhi l <= yhi (room_limits c).
Proof. exact move_frame_room. Qed.
Example C59_moved_ex : xhi (move_frame (plain_env 10 []) (4, 0) 3 0) <= xhi (room_limits (plain_env 10 [])).
Proof. apply C59_moved. Qed.
Print Assumptions C59_moved.

(* it contains the position it was made for *)
Theorem C59_moved_start : forall c start dx dy, 0 <= frame_size c -> 0 <= move_limit c <= frame_size c * (1 # 2) -> 0 <= veh_size c * margin c ->
  contains (room_limits c) start -> contains (move_frame c start dx dy) start.
Proof. exact move_frame_start. Qed.
Example C59_moved_start_ex : contains (move_frame (plain_env 10 []) (4, 0) 3 0) (4, 0).
Proof. apply C59_moved_start; run. Qed.
Print Assumptions C59_moved_start.

(* and is not larger than the size of frames *)
Theorem C59_moved_size : forall c start dx dy, let l := move_frame c start dx dy in
  xhi l - xlo l <= frame_size c /\ yhi l - ylo l <= frame_size c.
Proof. exact move_frame_size. Qed.
Example C59_moved_size_ex : xhi (move_frame (plain_env 10 []) (4, 0) 3 0) - xlo (move_frame (plain_env 10 []) (4, 0) 3 0) <= 4.
Proof. apply (C59_moved_size (plain_env 10 [])). Qed.
Print Assumptions C59_moved_size.

(* but the shift frame around the goal is enlarged again and can leave the room *)
Theorem C59_moved_refuted : exists c start path f,
  contains (room_limits c) start /\ shift_frame c start path = Ok f /\
  xhi (room_limits c) < xhi (b_lim (f_border f)).
Proof. exact shift_leaves_room_refuted. Qed.
Print Assumptions C59_moved_refuted.

(* and so does the corridor frame around a vehicle near a wall *)
Theorem C59_base_refuted : exists c start path l ws,
  contains (room_limits c) start /\ corridor_base c start path = Ok (l, ws) /\
  xhi (room_limits c) < xhi l.
Proof. exact base_leaves_room_refuted. Qed.
Print Assumptions C59_base_refuted.

(* scaling up: the frame only grows, three sides stay in the room, the lower one passes it by less than a step; when it does, and only then, the frame ends on an obstacle; no side can be moved one more step *)
Theorem C59_scaled : forall c, all_plain (env_obs c) -> forall fuel l b,
  let room := room_limits c in let step := step_size c in let obs := env_obs c in
  0 < step -> within l room -> scale_up_border c fuel l = Ok b ->
  within l b /\ xlo room <= xlo b /\ xhi b <= xhi room /\ yhi b <= yhi room /\ ylo room - step <= ylo b /\
  (free l obs -> (free b obs <-> ylo room <= ylo b)) /\
  (xhi room < xhi b + step \/ ~ free (Lim (xlo b) (ylo b) (xhi b + step) (yhi b)) obs) /\
  (xlo b - step < xlo room \/ ~ free (Lim (xlo b - step) (ylo b) (xhi b) (yhi b)) obs) /\
  (yhi room < yhi b + step \/ ~ free (Lim (xlo b) (ylo b) (xhi b) (yhi b + step)) obs) /\
  (ylo b - step < ylo room \/ ~ free (Lim (xlo b) (ylo b - step) (xhi b) (yhi b)) obs).
Proof. exact scale_up_ok. Qed.
Example C59_scaled_ex : xhi (room_limits room10) <= 5 /\ exists b, scale_up_border room10 100 (base_box room10 (0, 0)) = Ok b /\ within (base_box room10 (0, 0)) b.
Proof.
  split; [run|]. eexists. split; [vm_compute; reflexivity|].
  refine (proj1 (C59_scaled room10 room10_plain 100 _ _ _ _ _)); [run|run|vm_compute; reflexivity].
Qed.
Print Assumptions C59_scaled.

(* the four loops end *)
Theorem C59_scaled_ends : forall c, all_plain (env_obs c) -> forall l, 0 < step_size c ->
  exists n b, forall fuel, (n <= fuel)%nat -> scale_up_border c fuel l = Ok b.
Proof. exact scale_up_ends. Qed.
Example C59_scaled_ends_ex : exists n b, forall fuel, (n <= fuel)%nat -> scale_up_border room10 fuel (base_box room10 (0, 0)) = Ok b.
Proof. apply (C59_scaled_ends room10 room10_plain). run. Qed.
Print Assumptions C59_scaled_ends.

(* with a vehicle of size 0 and the coarse steps they do not *)
Theorem C59_scaled_stuck : forall c d l, step_size c == 0 ->
  (forall s, s == side d l -> get_stationary_obstacles (put d l s) (env_obs c) = Ok []) ->
  out d (side d l) <= out d (side d (room_limits c)) ->
  forall fuel, scale_loop c d fuel l = Err OutOfFuel.
Proof. exact scale_loop_stuck. Qed.
Example C59_scaled_stuck_ex : forall fuel, scale_loop (Cfg 0 (11 # 10) 10 10 (0, 0) 4 2 false []) XPos fuel (Lim 0 0 1 1) = Err OutOfFuel.
Proof. apply C59_scaled_stuck; [reflexivity|reflexivity|vm_compute; discriminate]. Qed.
Print Assumptions C59_scaled_stuck.

(* the lower side does pass the room *)
Theorem C59_scaled_refuted : exists c fuel path f,
  all_plain (env_obs c) /\ corridor_frame c fuel (0, 0) path = Ok f /\
  ylo (b_lim (f_border f)) < ylo (room_limits c) /\ f_stationary f <> [].
Proof. exact overshoot_refuted. Qed.
Print Assumptions C59_scaled_refuted.

(* the closest waypoint is one of the path *)
Theorem C95_closest : forall c pos ws i, find_closest_waypoint c pos ws = Ok i ->
  (i < length ws)%nat.
Proof. exact find_closest_ok. Qed.
Example C95_closest_ex : (1 < 3)%nat.
Proof. apply (C95_closest (plain_env 10 []) (2, 1) [(0, 0); (2, 0); (4, 0)]). vm_compute. reflexivity. Qed.
Print Assumptions C95_closest.

(* and no other is closer, provided one is closer than the longest side of the room *)
Theorem C95_closest_best : forall c pos ws i v, find_closest_waypoint c pos ws = Ok i ->
  In v ws -> sq_dist v pos < Qmax (room_w c) (room_h c) * Qmax (room_w c) (room_h c) ->
  forall w d, In w ws -> sq_dist (nth i ws d) pos <= sq_dist w pos.
Proof. exact find_closest_best. Qed.
Example C95_closest_best_ex : sq_dist (2, 0) (2, 1) <= sq_dist (4, 0) (2, 1).
Proof. apply (C95_closest_best (plain_env 10 []) (2, 1) [(0, 0); (2, 0); (4, 0)] 1 (2, 0)) with (d := (0, 0));
  [vm_compute; reflexivity|cbn; tauto|vm_compute; reflexivity|cbn; tauto]. Qed.
Print Assumptions C95_closest_best.

(* the base frame has no stationary obstacle, contains its last waypoint, and its waypoints are consecutive points of the path, starting at the closest one *)
Theorem C95_base : forall c start path l ws, all_plain (env_obs c) -> 0 < veh_size c * margin c ->
  free (base_box c start) (env_obs c) -> corridor_base c start path = Ok (l, ws) ->
  free l (env_obs c) /\ interior l (last ws (0, 0)) /\ ws <> [] /\
  exists i n, find_closest_waypoint c start path = Ok i /\ ws = firstn n (skipn i path).
Proof. exact corridor_base_ok. Qed.
Example C95_base_ex : exists l ws, corridor_base room10 (0, 0) [(0, 0); (3, 0); (3, 3); (0, 4)] = Ok (l, ws) /\ interior l (last ws (0, 0)) /\ free l (env_obs room10).
Proof.
  eexists. eexists. split; [vm_compute; reflexivity|].
  edestruct (C95_base room10 (0, 0) [(0, 0); (3, 0); (3, 3); (0, 4)]) as (A & B & _);
    [exact room10_plain|run|exact room10_free|vm_compute; reflexivity|]. split; [exact B|exact A].
Qed.
Print Assumptions C95_base.

(* after scaling up the last waypoint is still in the frame; the added ones are in the frame and on the path *)
Theorem C95_extended : forall c fuel path l ws l' ws', all_plain (env_obs c) -> 0 < step_size c ->
  within l (room_limits c) -> ws <> [] -> interior l (last ws (0, 0)) ->
  scale_up_frame c fuel path l ws = Ok (l', ws') ->
  interior l' (last ws' (0, 0)) /\ exists more, ws' = ws ++ more /\ forall p, In p more -> interior l' p /\ In p path.
Proof. exact scale_up_frame_last. Qed.
Example C95_extended_ex : exists l' ws', scale_up_frame room10 100 [(0, 0); (3, 0); (3, 3)] (base_box room10 (0, 0)) [(0, 0)] = Ok (l', ws') /\ interior l' (last ws' (0, 0)).
Proof.
  eexists. eexists. split; [vm_compute; reflexivity|].
  refine (proj1 (C95_extended room10 100 [(0, 0); (3, 0); (3, 3)] (base_box room10 (0, 0)) [(0, 0)] _ _ room10_plain _ _ _ _ _));
    [run|run|discriminate|run|vm_compute; reflexivity].
Qed.
Print Assumptions C95_extended.

(* a whole corridor frame has no stationary obstacle exactly when its lower side has not passed the room *)
Theorem C95_corridor : forall c fuel start path f, all_plain (env_obs c) -> 0 < veh_size c * margin c -> 0 < step_size c ->
  free (base_box c start) (env_obs c) ->
  (forall l ws, corridor_base c start path = Ok (l, ws) -> within l (room_limits c)) ->
  corridor_frame c fuel start path = Ok f ->
  let l := b_lim (f_border f) in let r := room_limits c in
  xlo r <= xlo l /\ xhi l <= xhi r /\ yhi l <= yhi r /\ ylo r - step_size c <= ylo l /\
  (f_stationary f = [] <-> ylo r <= ylo l).
Proof. exact corridor_frame_ok. Qed.
Example C95_corridor_ex : exists f, corridor_frame room10 100 (0, 0) [(0, 0); (3, 0); (3, 3)] = Ok f /\ f_stationary f = [].
Proof.
  eexists. split; [vm_compute; reflexivity|].
  refine (proj2 (proj2 (proj2 (proj2 (proj2 (C95_corridor room10 100 (0, 0) [(0, 0); (3, 0); (3, 3)] _ room10_plain _ _ room10_free _ _))))) _);
    [run|run|intros l ws E; vm_compute in E; injection E as <- <-; run|vm_compute; reflexivity|run].
Qed.
Print Assumptions C95_corridor.

(* for a path that never turns back, the vehicle keeps its margin in the base frame and all waypoints are inside *)
Theorem C95_staircase : forall c ux uy start path l ws, 0 < veh_size c * margin c ->
  staircase ux uy start path ->
  corridor_base c start path = Ok (l, ws) -> stays l start (veh_size c * margin c) ws.
Proof. exact staircase_frame. Qed.
Example C95_staircase_ex : exists l ws, corridor_base back_env (0, 0) [(0, 0); (-3, 0); (-5, 5); (-8, 30)] = Ok (l, ws) /\ stays l (0, 0) ((1 # 2) * (11 # 10)) ws.
Proof.
  eexists. eexists. split; [vm_compute; reflexivity|].
  apply (C95_staircase back_env false true (0, 0) [(0, 0); (-3, 0); (-5, 5); (-8, 30)]); [run|cbn; lra|vm_compute; reflexivity].
Qed.
Print Assumptions C95_staircase.

(* for other paths the frame can end without the vehicle in it, although its position is a waypoint *)
Theorem C95_start_refuted : exists c fuel start path f,
  all_plain (env_obs c) /\ corridor_frame c fuel start path = Ok f /\ In (Some start) (f_waypoints f) /\
  ~ contains (b_lim (f_border f)) start.
Proof. exact start_lost_refuted. Qed.
Print Assumptions C95_start_refuted.

(* moving the frame: it grows and the last waypoint gets its distance, when it was inside and not on the right or upper side *)
Theorem C96_move_frame : forall veh m l p, fat l -> 0 < veh -> 1 <= m -> 2 * veh <= xhi l - xlo l -> 2 * veh <= yhi l - ylo l ->
  contains l p -> ~ fst p == xhi l -> ~ snd p == yhi l ->
  within l (reach_move_frame veh m l p) /\ clearance (reach_move_frame veh m l p) veh p.
Proof. exact reach_move_frame_ok. Qed.
Example C96_move_frame_ex : clearance (reach_move_frame (1 # 2) (11 # 10) (Lim 0 0 4 4) (39 # 10, 2)) (1 # 2) (39 # 10, 2).
Proof. apply C96_move_frame; try run. Qed.
Print Assumptions C96_move_frame.

(* a side that moves ends exactly at the vehicle size times the margin from the last waypoint *)
Theorem C96_move_frame_exact : forall veh m l p, fat l -> contains l p -> ~ fst p == xhi l -> ~ snd p == yhi l ->
  let l' := reach_move_frame veh m l p in
  (xlo l' == xlo l \/ xlo l' == fst p - veh * m) /\ (xhi l' == xhi l \/ xhi l' == fst p + veh * m) /\
  (ylo l' == ylo l \/ ylo l' == snd p - veh * m) /\ (yhi l' == yhi l \/ yhi l' == snd p + veh * m).
Proof. exact reach_move_frame_exact. Qed.
Example C96_move_frame_exact_ex : xhi (reach_move_frame (1 # 2) (11 # 10) (Lim 0 0 4 4) (39 # 10, 2)) == (39 # 10) + (1 # 2) * (11 # 10).
Proof.
  destruct (C96_move_frame_exact (1 # 2) (11 # 10) (Lim 0 0 4 4) (39 # 10, 2) ltac:(run) ltac:(run) ltac:(run) ltac:(run)) as (_ & H & _).
  destruct H as [H|H]; [|exact H]. exfalso. vm_compute in H. discriminate. Qed.
Print Assumptions C96_move_frame_exact.

(* on the right side it stays on the side *)
Theorem C96_move_frame_side_refuted : exists veh m l p, contains l p /\ fat l /\ 0 < veh /\ 1 <= m /\
  fst p == xhi (reach_move_frame veh m l p).
Proof. exact on_side_refuted. Qed.
Print Assumptions C96_move_frame_side_refuted.

(* outside by more than the vehicle size it stays outside *)
Theorem C96_move_frame_outside_refuted : exists veh m l p, fat l /\ 0 < veh /\ 1 <= m /\
  ~ contains (reach_move_frame veh m l p) p.
Proof. exact far_outside_refuted. Qed.
Print Assumptions C96_move_frame_outside_refuted.

(* moving the waypoint: it stays on the segment from the earlier waypoint and gets its distance, when the earlier one has the full margin *)
Theorem C96_moved_point : forall veh m l p1 p2, fat l -> 0 < veh -> 1 <= m ->
  clearance l (veh * m) p1 -> ~ fst p2 == xhi l -> ~ snd p2 == yhi l ->
  (forall q, on_segment p1 p2 q -> fst q == xlo l + veh * m \/ fst q == xhi l - veh * m -> ~ snd q == yhi l) ->
  on_segment p1 p2 (new_waypoint veh m l p1 p2) /\ clearance l veh (new_waypoint veh m l p1 p2).
Proof. exact new_waypoint_ok. Qed.
Example C96_moved_point_ex : on_segment (2, 2) (5, 3) (new_waypoint (1 # 2) (11 # 10) (Lim 0 0 4 4) (2, 2) (5, 3)).
Proof.
  apply C96_moved_point; [run|run|run|run|run|run|]. intros q (t & T & _ & E) _. intro Z. cbn [fst snd yhi] in E, Z. lra.
Qed.
Print Assumptions C96_moved_point.

(* so the last waypoint is reachable afterwards *)
Theorem C96_move_point : forall veh m l before p2 ws, fat l -> 0 < veh -> 1 <= m ->
  ~ fst p2 == xhi l -> ~ snd p2 == yhi l ->
  (forall p1, In p1 before -> too_close l veh p1 = false -> clearance l (veh * m) p1 /\
    forall q, on_segment p1 p2 q -> fst q == xlo l + veh * m \/ fst q == xhi l - veh * m -> ~ snd q == yhi l) ->
  reach_move_point veh m l before p2 = Ok ws ->
  clearance l veh (last ws (0, 0)) /\ (exists p1, In p1 (p2 :: before) /\ on_segment p1 p2 (last ws (0, 0))).
Proof. exact last_waypoint_reachable. Qed.
Example C96_move_point_ex : exists ws, reach_move_point (1 # 2) (11 # 10) (Lim 0 0 4 4) [(2, 2)] (5, 3) = Ok ws /\ clearance (Lim 0 0 4 4) (1 # 2) (last ws (0, 0)).
Proof.
  eexists. split; [vm_compute; reflexivity|].
  refine (proj1 (C96_move_point (1 # 2) (11 # 10) (Lim 0 0 4 4) [(2, 2)] (5, 3) _ _ _ _ _ _ _ _)); [run|run|run|run|run| |vm_compute; reflexivity].
  intros p1 [<-|[]] _. split; [run|]. intros q (t & T & _ & E) _. intro Z. cbn [fst snd yhi] in E, Z. lra.
Qed.
Print Assumptions C96_move_point.

(* the other waypoints are a beginning of the old list, up to the last one that is far enough from the border *)
Theorem C96_waypoints : forall veh m l before p2 ws, reach_move_point veh m l before p2 = Ok ws ->
  (too_close l (veh * m) p2 = false /\ ws = before ++ [p2]) \/
  (exists keep p1 dropped, before = keep ++ p1 :: dropped /\ too_close l veh p1 = false /\
     (forall q, In q dropped -> too_close l veh q = true) /\
     ws = keep ++ [p1; new_waypoint veh m l p1 p2]).
Proof. exact reach_move_point_shape. Qed.
Example C96_waypoints_ex : exists ws, reach_move_point (1 # 2) (11 # 10) (Lim 0 0 4 4) [(1, 1); (2, 2); (39 # 10, 2)] (5, 2) = Ok ws /\ length ws = 3%nat.
Proof.
  eexists. split; [vm_compute; reflexivity|].
  destruct (C96_waypoints (1 # 2) (11 # 10) (Lim 0 0 4 4) [(1, 1); (2, 2); (39 # 10, 2)] (5, 2) _ eq_refl) as [(A & _)|_];
    [vm_compute in A; discriminate|reflexivity].
Qed.
Print Assumptions C96_waypoints.

(* the only failure is that no earlier waypoint is far enough from the border *)
Theorem C96_none : forall veh m l before p2 e, reach_move_point veh m l before p2 = Err e ->
  e = IndexError /\ too_close l (veh * m) p2 = true /\ forall q, In q before -> too_close l veh q = true.
Proof. exact reach_move_point_err. Qed.
Example C96_none_ex : IndexError = IndexError.
Proof. apply (C96_none (1 # 2) (11 # 10) (Lim 0 0 4 4) [(39 # 10, 2)] (5, 2)). vm_compute. reflexivity. Qed.
Print Assumptions C96_none.

(* which happens for a path of one point next to an obstacle *)
Theorem C96_none_refuted : exists c fuel start path,
  all_plain (env_obs c) /\ path <> [] /\ corridor_frame c fuel start path = Err IndexError.
Proof. exact single_waypoint_refuted. Qed.
Print Assumptions C96_none_refuted.

(* a last waypoint on the right side is sent to the left side of the frame *)
Theorem C96_other_side_refuted : exists veh m l p1 p2 q, fat l /\ 0 < veh /\ 1 <= m /\ clearance l (veh * m) p1 /\ contains l p2 /\
  reach_move_point veh m l [p1] p2 = Ok [p1; q] /\ ~ on_segment p1 p2 q.
Proof. exact other_side_refuted. Qed.
Print Assumptions C96_other_side_refuted.

(* an earlier waypoint without the margin: the new one can be too close to a side *)
Theorem C96_corner_refuted : exists veh m l p1 p2 q, fat l /\ 0 < veh /\ 1 <= m /\ too_close l veh p1 = false /\ contains l p2 /\
  reach_move_point veh m l [p1] p2 = Ok [p1; q] /\ fst q < xlo l + veh.
Proof. exact corner_refuted. Qed.
Print Assumptions C96_corner_refuted.

(* stationary obstacles can be looked up when all are level rectangles or circles *)
Theorem C97_stationary_total : forall l obs, (exists r, get_stationary_obstacles l obs = Ok r) <->
  (forall o, In o obs -> never_pushed o -> plain (o_shape o)).
Proof. exact stationary_defined. Qed.
Example C97_stationary_total_ex : exists r, get_stationary_obstacles (Lim 0 0 4 4) [rect_at 1 1 (2, 2)] = Ok r.
Proof. apply C97_stationary_total. intros o [<-|[]] _. split; reflexivity. Qed.
Print Assumptions C97_stationary_total.

(* otherwise the error is a RuntimeError *)
Theorem C97_stationary_fails : forall l obs e, get_stationary_obstacles l obs = Err e ->
  e = RuntimeError /\ exists o, In o obs /\ never_pushed o /\ ~ plain (o_shape o).
Proof. exact stationary_raises. Qed.
Example C97_stationary_fails_ex : RuntimeError = RuntimeError.
Proof. apply (C97_stationary_fails (Lim 0 0 4 4) [Obs 0 (SRect 1 1 0 1) None (2, 2) (0, 0) true]). vm_compute. reflexivity. Qed.
Print Assumptions C97_stationary_fails.

(* listed are those whose bounding box is in contact with the frame *)
Theorem C97_stationary : forall l obs r o, all_plain obs -> get_stationary_obstacles l obs = Ok r ->
  In o r <-> In o obs /\ never_pushed o /\ ~ disjoint l (box o).
Proof. exact stationary_found. Qed.
Example C97_stationary_ex : In (rect_at 1 1 (2, 2)) [rect_at 1 1 (2, 2)].
Proof.
  apply (C97_stationary (Lim 0 0 4 4) [rect_at 1 1 (2, 2); rect_at 1 1 (7, 7)]); [plain_tac|vm_compute; reflexivity|].
  split; [now left|]. split; [exact I|]. intros D. unfold disjoint in D. cbn in D. lra.
Qed.
Print Assumptions C97_stationary.

(* so no stationary obstacle in the frame is missed *)
Theorem C97_stationary_complete : forall l obs r o, all_plain obs -> wf l -> get_stationary_obstacles l obs = Ok r ->
  In o obs -> never_pushed o -> touches l o -> In o r.
Proof. exact stationary_complete. Qed.
Example C97_stationary_complete_ex : In (rect_at 1 1 (2, 2)) [rect_at 1 1 (2, 2)].
Proof.
  apply (C97_stationary_complete (Lim 0 0 4 4) [rect_at 1 1 (2, 2)]); [plain_tac|run|vm_compute; reflexivity|now left|exact I|].
  exists (2, 2). run.
Qed.
Print Assumptions C97_stationary_complete.

(* rectangles are listed exactly when they have a point in the frame *)
Theorem C97_stationary_rect : forall l obs r o w h cs sn, all_plain obs -> wf l ->
  get_stationary_obstacles l obs = Ok r -> o_shape o = SRect w h cs sn ->
  In o r <-> In o obs /\ never_pushed o /\ touches l o.
Proof. exact stationary_exact_rect. Qed.
Example C97_stationary_rect_ex : ~ touches (Lim 0 0 4 4) (rect_at 1 1 (7, 7)).
Proof.
  intro T. assert (In (rect_at 1 1 (7, 7)) []) as []. 
  apply (C97_stationary_rect (Lim 0 0 4 4) [rect_at 1 1 (7, 7)] [] (rect_at 1 1 (7, 7)) 1 1 1 0);
    [plain_tac|run|vm_compute; reflexivity|reflexivity|]. split; [now left|]. split; [exact I|exact T].
Qed.
Print Assumptions C97_stationary_rect.

(* circles also when they only come near a corner *)
Theorem C97_disc_refuted : exists l o, plain (o_shape o) /\ shape_ok (o_shape o) /\
  get_stationary_obstacles l [o] = Ok [o] /\ ~ touches l o.
Proof. exact disc_corner_refuted. Qed.
Print Assumptions C97_disc_refuted.

(* moving obstacles: listed are those with a corner of their bounding box, or the centre of a circle, in the frame at one of the sampled times *)
Theorem C97_moving : forall l ts T obs o', 0 < ts -> 0 <= T -> (forall o, In o obs -> plain (o_shape o)) ->
  In o' (fst (get_moving_obstacles l ts T obs)) <->
  exists o, In o obs /\ o' = set_avoid o /\ ~ pt_eq (o_vel o) (0, 0) /\
    exists c (k : Z), In c (tracked o) /\ (0 <= k <= n_samples T ts)%Z /\ contains l (at_time c (o_vel o) (inject_Z k * ts)).
Proof. exact moving_listed. Qed.
Example C97_moving_ex : In (set_avoid (mover (SCirc 1) (-3, 2) (1, 0))) (fst (get_moving_obstacles (Lim 0 0 4 4) 1 10 [mover (SCirc 1) (-3, 2) (1, 0)])).
Proof.
  apply C97_moving; [run|run|intros o [<-|[]]; exact I|]. eexists. split; [now left|]. split; [reflexivity|].
  split; [intros (A & _); discriminate|]. exists (-3, 2), 4%Z. split; [now left|]. split; [run|run].
Qed.
Print Assumptions C97_moving.

(* the last sampled time lies after the motion time, by at most one and a half sample time *)
Theorem C97_samples : forall time ts, 0 < ts -> 0 <= time ->
  time < inject_Z (n_samples time ts) * ts /\ inject_Z (n_samples time ts) * ts <= time + (3 # 2) * ts.
Proof. exact n_samples_bounds. Qed.
Example C97_samples_ex : 10 < inject_Z (n_samples 10 (3 # 10)) * (3 # 10).
Proof. apply C97_samples; run. Qed.
Print Assumptions C97_samples.

(* such a point that stays in the frame for a sample time within the motion time is noticed *)
Theorem C97_moving_noticed : forall l ts T obs o c t0, 0 < ts -> 0 <= t0 -> t0 + ts <= T ->
  (forall o, In o obs -> plain (o_shape o)) -> In o obs -> ~ pt_eq (o_vel o) (0, 0) -> In c (tracked o) ->
  contains l (at_time c (o_vel o) t0) -> contains l (at_time c (o_vel o) (t0 + ts)) ->
  In (set_avoid o) (fst (get_moving_obstacles l ts T obs)).
Proof. exact moving_noticed. Qed.
Example C97_moving_noticed_ex : In (set_avoid (mover (SCirc 1) (-3, 2) (1, 0))) (fst (get_moving_obstacles (Lim 0 0 4 4) 1 10 [mover (SCirc 1) (-3, 2) (1, 0)])).
Proof.
  apply C97_moving_noticed with (c := (-3, 2)) (t0 := 7 # 2); try run;
    [intros o [<-|[]]; exact I|now left|intros (A & _); discriminate|now left].
Qed.
Print Assumptions C97_moving_noticed.

(* the environment keeps its obstacles, only the option avoid can change *)
Theorem C97_environment : forall l ts T obs i, length (snd (get_moving_obstacles l ts T obs)) = length obs /\
  forall d, nth i (snd (get_moving_obstacles l ts T obs)) d = nth i obs d
         \/ nth i (snd (get_moving_obstacles l ts T obs)) d = set_avoid (nth i obs d).
Proof. exact moving_keeps. Qed.
Example C97_environment_ex : length (snd (get_moving_obstacles (Lim 0 0 4 4) 1 10 [rect_at 1 1 (2, 2)])) = 1%nat.
Proof. exact (proj1 (C97_environment (Lim 0 0 4 4) 1 10 [rect_at 1 1 (2, 2)] 0)). Qed.
Print Assumptions C97_environment.

(* a fast obstacle is missed between two samples *)
Theorem C97_fast_refuted : exists l o ts T t, 0 < ts /\ 0 <= t <= T /\ plain (o_shape o) /\
  contains l (at_time (o_pos o) (o_vel o) t) /\ fst (get_moving_obstacles l ts T [o]) = [].
Proof. exact fast_refuted. Qed.
Print Assumptions C97_fast_refuted.

(* an obstacle that covers the whole frame is missed *)
Theorem C97_covering_refuted : exists l o ts T, 0 < ts /\ plain (o_shape o) /\ ~ pt_eq (o_vel o) (0, 0) /\
  (forall p, contains l p -> occupies o p) /\ fst (get_moving_obstacles l ts T [o]) = [].
Proof. exact covering_refuted. Qed.
Print Assumptions C97_covering_refuted.

(* the corners of a turned rectangle are turned twice *)
Theorem C97_rotated_refuted : exists l o v ts T, 0 < ts /\ ~ pt_eq (o_vel o) (0, 0) /\ In v (vertices (o_shape o)) /\
  contains l (fst (o_pos o) + fst v, snd (o_pos o) + snd v) /\ fst (get_moving_obstacles l ts T [o]) = [].
Proof. exact rotated_refuted. Qed.
Print Assumptions C97_rotated_refuted.

(* an obstacle that stands still but has a velocity in its simulation data is in neither list *)
Theorem C97_neither_refuted : exists l o ts T, plain (o_shape o) /\ pt_eq (o_vel o) (0, 0) /\ touches l o /\
  get_stationary_obstacles l [o] = Ok [] /\ get_moving_obstacles l ts T [o] = ([], [o]).
Proof. exact neither_refuted. Qed.
Print Assumptions C97_neither_refuted.

(* one that moves without simulation data is in both *)
Theorem C97_both_refuted : exists l o ts T, plain (o_shape o) /\ ~ pt_eq (o_vel o) (0, 0) /\
  get_stationary_obstacles l [o] = Ok [o] /\ fst (get_moving_obstacles l ts T [o]) = [set_avoid o].
Proof. exact both_refuted. Qed.
Print Assumptions C97_both_refuted.

(* an obstacle that was not to be avoided is avoided from then on *)
Theorem C97_avoid_refuted : exists l ts T o, o_avoid o = false /\
  get_moving_obstacles l ts T [o] = ([set_avoid o], [set_avoid o]) /\ o_avoid (set_avoid o) = true.
Proof. exact avoid_refuted. Qed.
Print Assumptions C97_avoid_refuted.

(* a shift frame, when it is made, has None as its last waypoint or no end point (provided the path does not pass its goal and leave again) *)
Theorem C98_unusable : forall c start path f, shift_frame c start path = Ok f ->
  (forall a g b p, path = a ++ g :: b -> pt_eq g (last path (0, 0)) -> In p b -> interior (start_box c start) p
     \/ (Qabs (fst p - fst start) <= move_limit c + frame_size c * (1 # 2)
         /\ Qabs (snd p - snd start) <= move_limit c + frame_size c * (1 # 2))) ->
  (last (f_waypoints f) None = None /\ f_endpoint f <> None) \/
  (f_endpoint f = None /\ exists g, last (f_waypoints f) None = Some g /\ pt_eq g (last path (0, 0))).
Proof. exact shift_frame_ok. Qed.
Example C98_unusable_ex : exists f, shift_frame (plain_env 100 []) (0, 0) [(0, 0); (3, 0)] = Ok f /\ f_endpoint f = None.
Proof.
  eexists. split; [vm_compute; reflexivity|].
  destruct (C98_unusable (plain_env 100 []) (0, 0) [(0, 0); (3, 0)] _ eq_refl) as [(A & _)|(A & _)];
    [|vm_compute in A; discriminate|exact A].
  intros a g b p E G J. destruct a as [|x [|y a]]; cbn in E.
  - injection E as <- <-. destruct G as (G & _). discriminate.
  - injection E as _ _ <-. destruct J.
  - destruct a; discriminate.
Qed.
Print Assumptions C98_unusable.

(* with the whole path in the first box, none is made *)
Theorem C98_inside : forall c start path, path <> [] ->
  (forall p, In p path -> interior (start_box c start) p) ->
  shift_frame c start path = Err UnboundLocalError.
Proof. exact shift_frame_all_inside. Qed.
Example C98_inside_ex : shift_frame (plain_env 100 []) (0, 0) [(0, 0); (1, 1)] = Err UnboundLocalError.
Proof. apply C98_inside; [discriminate|]. intros p [<-|[<-|[]]]; run. Qed.
Print Assumptions C98_inside.

(* with a goal in the first box and another point outside, neither *)
Theorem C98_return_refuted : exists c start path, path <> [] /\
  contains (room_limits c) start /\ shift_frame c start path = Err TypeError.
Proof. exact shift_goal_inside_refuted. Qed.
Print Assumptions C98_return_refuted.

(* the intersection point is on the segment and on the border of the frame *)
Theorem C99_intersection : forall l p1 p2 q, wf l -> find_intersection l p1 p2 = Some q ->
  on_segment p1 p2 q /\ contains l q /\ (fst q == xlo l \/ fst q == xhi l \/ snd q == ylo l \/ snd q == yhi l).
Proof. exact intersection_ok. Qed.
Example C99_intersection_ex : exists q, find_intersection (Lim 0 0 4 4) (2, 2) (6, 4) = Some q /\ on_segment (2, 2) (6, 4) q.
Proof. eexists. split; [vm_compute; reflexivity|]. apply (C99_intersection (Lim 0 0 4 4)); [run|vm_compute; reflexivity]. Qed.
Print Assumptions C99_intersection.

(* two segments that are said to intersect have the computed point in common *)
Theorem C99_segments : forall p1 p2 p3 p4, intersect_line_segments p1 p2 p3 p4 = true ->
  exists q, intersect_lines p1 p2 p3 p4 = Some q /\ on_segment p1 p2 q /\ on_segment p3 p4 q.
Proof. exact segments_meet. Qed.
Example C99_segments_ex : exists q, intersect_lines (0, 0) (2, 2) (0, 2) (2, 0) = Some q /\ on_segment (0, 0) (2, 2) q /\ on_segment (0, 2) (2, 0) q.
Proof. apply C99_segments. vm_compute. reflexivity. Qed.
Print Assumptions C99_segments.

(* L-shapes: a changed frame has no stationary obstacle and contains the vehicle, resp. its last waypoint; frames in the room stay in the room *)
Theorem C99_l_shape : forall c l1 l2 start w10 w20 w2n r1 r2, all_plain (env_obs c) ->
  create_l_shape c l1 l2 start w10 w20 w2n = Ok (r1, r2) ->
  (r1 = l1 \/ (interior r1 start /\ free r1 (env_obs c))) /\
  (r2 = l2 \/ (interior r2 w2n /\ free r2 (env_obs c))) /\
  (forall room, within l1 room -> within l2 room -> within r1 room /\ within r2 room).
Proof. exact l_shape_ok. Qed.
Example C99_l_shape_ex : exists r1 r2, create_l_shape (plain_env 100 []) (Lim 0 0 10 2) (Lim 6 0 8 10) (1, 1) (1, 1) (7, 1) (7, 9) = Ok (r1, r2) /\ within r1 (Lim 0 0 10 10) /\ within r2 (Lim 0 0 10 10).
Proof.
  eexists. eexists. split; [vm_compute; reflexivity|].
  refine (proj2 (proj2 (C99_l_shape (plain_env 100 []) (Lim 0 0 10 2) (Lim 6 0 8 10) (1, 1) (1, 1) (7, 1) (7, 9) _ _ _ _)) (Lim 0 0 10 10) _ _);
    [intros o []|vm_compute; reflexivity|run|run].
Qed.
Print Assumptions C99_l_shape.

(* the last waypoint of the first frame can fall outside *)
Theorem C99_waypoint_refuted : exists c l1 l2 start w10 w1n w20 w2n r1 r2,
  env_obs c = [] /\ interior l1 w1n /\ create_l_shape c l1 l2 start w10 w20 w2n = Ok (r1, r2) /\ ~ contains r1 w1n.
Proof. exact l_waypoint_refuted. Qed.
Print Assumptions C99_waypoint_refuted.

(* a line through a corner changes two sides of the first frame but only one of the second *)
Theorem C99_corner : exists c l1 l2 p, env_obs c = [] /\ interior l1 p /\
  l_first c (8, 2) l1 l2 p = Ok (Lim (xlo l2) (ylo l2) (xhi l1) (yhi l1)) /\
  l_second c (8, 2) l2 l1 p = Ok (Lim (xlo l1) (ylo l2) (xhi l1) (yhi l1)).
Proof. exact l_corner. Qed.
Print Assumptions C99_corner.
