(** Bouncing obstacles (C49). *)
From Coq Require Import Reals List Arith Lra Lia Bool.
From Verif Require Import Geom_Model Geom_Spec Obst_Model Obst_Spec Bounce_Model Bounce_Proofs.
Import ListNotations.
Local Open Scope R_scope.

(* one step of the environment, obstacles in uniform motion: all obstacles keep the magnitude of both speed components and move with the new velocity *)
Theorem C49_speed : forall room rpos d obs r, 0 <= d -> env_simulate room rpos d obs = Some r ->
  (forall o, In o obs -> steady o) ->
  length r = length obs /\
  forall i o, nth_error obs i = Some o -> exists o', nth_error r i = Some o' /\
    same_speed (bvel o) (bvel o') /\ steady o' /\
    bpos o' = (fst (bpos o) + fst (bvel o') * d, snd (bpos o) + snd (bvel o') * d).
Proof. exact env_speed. Qed.
Definition roller (x vx : R) : obst := mkOb (SCircle 1) (mkO x vx 0) (mkO 0 1 0) [] [] 0 true.
Example C49_speed_ex : exists r, env_simulate ((-5, 5), (-5, 5)) (0, 0) (1/10) [roller (-2) 1; roller 2 (-1)] = Some r /\
  (forall o, In o [roller (-2) 1; roller 2 (-1)] -> steady o).
Proof.
  destruct (env_total ((-5, 5), (-5, 5)) (0, 0) (1/10) [roller (-2) 1; roller 2 (-1)]) as [r E].
  { intros a b [<-|[<-|[]]] [<-|[<-|[]]]; apply circles_testable. }
  exists r. split; [exact E|]. intros o [<-|[<-|[]]]; repeat split.
Qed.
Print Assumptions C49_speed.

(* the reflection alone, any motion: magnitudes kept, nothing but the velocity changes *)
Theorem C49_reflection : forall room rpos others o o', bounce_one room rpos others o = Some o' ->
  same_speed (bvel o) (bvel o') /\ bpos o' = bpos o /\ bshape o' = bshape o /\
  oa (bxst o') = oa (bxst o) /\ oa (byst o') = oa (byst o) /\ btime o' = btime o /\
  bxev o' = bxev o /\ byev o' = byev o /\ bbounce o' = bbounce o.
Proof. exact bounce_speed. Qed.
Print Assumptions C49_reflection.

(* the step raises nothing when all pairs of shapes can be tested *)
Theorem C49_runs : forall room rpos d obs,
  (forall a b, In a obs -> In b obs -> testable (bshape a) (bshape b)) ->
  exists r, env_simulate room rpos d obs = Some r.
Proof. exact env_total. Qed.
Example C49_runs_ex : testable (bshape (roller 0 0)) (bshape (roller 1 2)).
Proof. apply circles_testable. Qed.
Print Assumptions C49_runs.

(* with general polygons it does *)
Theorem C49_runs_refuted : exists room rpos d obs, env_simulate room rpos d obs = None.
Proof. exact polygons_refuted. Qed.
Print Assumptions C49_runs_refuted.

(* no contact: nothing changes *)
Theorem C49_untouched : forall room rpos others o,
  (forall q, In q others -> overlaps_with (bshape o) (bpos o) (bshape q) (bpos q) = Some false) ->
  is_outside_of (bshape o) (bpos o) room rpos = false ->
  bounce_one room rpos others o = Some o.
Proof. exact bounce_untouched. Qed.
Example C49_untouched_ex : bounce_one ((-5, 5), (-5, 5)) (0, 0) [] (roller 2 1) = Some (roller 2 1).
Proof.
  apply C49_untouched; [intros q []|]. apply (circle_box 1 (-5) 5 (-5) 5 (0, 0)); cbn; lra.
Qed.
Print Assumptions C49_untouched.

(* where a disc is inside the room *)
Theorem C49_room_circle : forall r xmin xmax ymin ymax rpos, 0 <= r ->
  room_box (SCircle r) ((xmin, xmax), (ymin, ymax)) rpos
    (xmin + fst rpos + r) (xmax + fst rpos - r) (ymin + snd rpos + r) (ymax + snd rpos - r).
Proof. exact circle_box. Qed.
Example C49_room_circle_ex : is_outside_of (SCircle 1) (3, 3) ((-5, 5), (-5, 5)) (0, 0) = false.
Proof. apply (C49_room_circle 1 (-5) 5 (-5) 5 (0, 0)); cbn; lra. Qed.
Print Assumptions C49_room_circle.

(* where a polygon is inside the room *)
Theorem C49_room_polygon : forall s room rpos, (forall r, s <> SCircle r) -> verts s <> [] ->
  exists lx ux ly uy, room_box s room rpos lx ux ly uy.
Proof. exact polygon_box. Qed.
Example C49_room_polygon_ex : (forall r, SRect (mkRect 1 1 0) <> SCircle r) /\ verts (SRect (mkRect 1 1 0)) <> [].
Proof. split; [discriminate|]. cbn. discriminate. Qed.
Print Assumptions C49_room_polygon.

(* moving along an axis: turned back *)
Theorem C49_straight : forall s room rpos, forall p vx vy, is_outside_of s p room rpos = true -> vx = 0 \/ vy = 0 ->
  reflect (fun p => Some (is_outside_of s p room rpos)) p (vx, vy) = Some (- vx, - vy).
Proof. exact room_straight. Qed.
Example C49_straight_ex : is_outside_of (SCircle 0) (2, 0) unit_room (0, 0) = true.
Proof. apply (box_out _ _ _ _ _ _ _ unit_box). cbn. lra. Qed.
Print Assumptions C49_straight.

(* out over the right wall by at most 0.15, away from the corners: the component pointing out is reversed *)
Theorem C49_right_wall : forall s room rpos lx ux ly uy, room_box s room rpos lx ux ly uy ->
  forall px py vx vy, ux < px <= ux + 0.15 -> lx + 0.15 <= ux ->
  ly + 0.15 <= py <= uy -> 0 < vx -> vy <> 0 ->
  reflect (fun p => Some (is_outside_of s p room rpos)) (px, py) (vx, vy) = Some (- vx, vy).
Proof. exact room_right. Qed.
Example C49_right_wall_ex : reflect (fun p => Some (is_outside_of (SCircle 0) p unit_room (0, 0))) (1.1, 0) (2, 3) = Some (- 2, 3).
Proof. apply (C49_right_wall _ _ _ _ _ _ _ unit_box); lra. Qed.
Print Assumptions C49_right_wall.

(* left wall *)
Theorem C49_left_wall : forall s room rpos lx ux ly uy, room_box s room rpos lx ux ly uy ->
  forall px py vx vy, lx - 0.15 <= px < lx -> lx + 0.15 <= ux ->
  ly + 0.15 <= py <= uy -> vx < 0 -> vy <> 0 ->
  reflect (fun p => Some (is_outside_of s p room rpos)) (px, py) (vx, vy) = Some (- vx, vy).
Proof. exact room_left. Qed.
Example C49_left_wall_ex : reflect (fun p => Some (is_outside_of (SCircle 0) p unit_room (0, 0))) (-1.1, 0) (-2, 3) = Some (- -2, 3).
Proof. apply (C49_left_wall _ _ _ _ _ _ _ unit_box); lra. Qed.
Print Assumptions C49_left_wall.

(* upper wall *)
Theorem C49_upper_wall : forall s room rpos lx ux ly uy, room_box s room rpos lx ux ly uy ->
  forall px py vx vy, uy < py <= uy + 0.15 -> ly + 0.15 <= uy ->
  lx + 0.15 <= px <= ux - 0.15 -> 0 < vy -> vx <> 0 ->
  reflect (fun p => Some (is_outside_of s p room rpos)) (px, py) (vx, vy) = Some (vx, - vy).
Proof. exact room_top. Qed.
Example C49_upper_wall_ex : reflect (fun p => Some (is_outside_of (SCircle 0) p unit_room (0, 0))) (0, 1.1) (-2, 3) = Some (-2, - 3).
Proof. apply (C49_upper_wall _ _ _ _ _ _ _ unit_box); lra. Qed.
Print Assumptions C49_upper_wall.

(* lower wall, no margins needed *)
Theorem C49_lower_wall : forall s room rpos lx ux ly uy, room_box s room rpos lx ux ly uy ->
  forall px py vx vy, py < ly -> vy < 0 -> vx <> 0 ->
  reflect (fun p => Some (is_outside_of s p room rpos)) (px, py) (vx, vy) = Some (vx, - vy).
Proof. exact room_bottom. Qed.
Example C49_lower_wall_ex : reflect (fun p => Some (is_outside_of (SCircle 0) p unit_room (0, 0))) (0, -4) (-2, -3) = Some (-2, - -3).
Proof. apply (C49_lower_wall _ _ _ _ _ _ _ unit_box); lra. Qed.
Print Assumptions C49_lower_wall.

(* crossed the right wall in the last step: back at the coordinate where that step began after the next one *)
Theorem C49_returns : forall room rpos d o px py lx ux ly uy, 0 <= d -> steady o -> bbounce o = true ->
  room_box (bshape o) room rpos lx ux ly uy ->
  let vx := fst (bvel o) in let vy := snd (bvel o) in
  bpos o = (px + vx * d, py) -> px <= ux < px + vx * d -> px + vx * d <= ux + 0.15 -> lx + 0.15 <= ux ->
  ly + 0.15 <= py <= uy -> 0 < vx -> vy <> 0 ->
  exists o', env_simulate room rpos d [o] = Some [o'] /\ bpos o' = (px, py + vy * d) /\
    bvel o' = (- vx, vy).
Proof. exact returns_right. Qed.
Example C49_returns_ex : let o := mkOb (SCircle 0) (mkO (0.95 + 1 * 0.1) 1 0) (mkO 0 2 0) [] [] 0 true in
  exists o', env_simulate unit_room (0, 0) 0.1 [o] = Some [o'] /\ bpos o' = (0.95, 0 + 2 * 0.1) /\ bvel o' = (- 1, 2).
Proof.
  intros o. apply (C49_returns unit_room (0, 0) 0.1 o 0.95 0 (-1) 1 (-1) 1); cbn; try lra; try reflexivity;
  [repeat split|apply unit_box].
Qed.
Print Assumptions C49_returns.

(* an obstacle already on its way back in is turned outwards *)
Theorem C49_inward_refuted : exists s room rpos pos vel v,
  is_outside_of s pos room rpos = true /\ 1 < fst pos /\ fst vel < 0 /\
  room_box s room rpos (-1) 1 (-1) 1 /\
  reflect (fun p => Some (is_outside_of s p room rpos)) pos vel = Some v /\ 0 < fst v.
Proof. exact inward_refuted. Qed.
Print Assumptions C49_inward_refuted.

(* out over two walls: still leads out of one of them *)
Theorem C49_corner_refuted : exists s room rpos pos vel v,
  room_box s room rpos (-1) 1 (-1) 1 /\ 1 < fst pos /\ 1 < snd pos /\ 0 < fst vel /\ 0 < snd vel /\
  reflect (fun p => Some (is_outside_of s p room rpos)) pos vel = Some v /\ 0 < snd v.
Proof. exact corner_refuted. Qed.
Print Assumptions C49_corner_refuted.

(* further out than 0.15: the wrong component may be reversed *)
Theorem C49_deep_refuted : exists s room rpos pos vel v,
  room_box s room rpos (-1) 1 (-1) 1 /\ 1 < fst pos /\ snd pos = 0 /\ 0 < fst vel /\
  reflect (fun p => Some (is_outside_of s p room rpos)) pos vel = Some v /\ 0 < fst v.
Proof. exact deep_refuted. Qed.
Print Assumptions C49_deep_refuted.
