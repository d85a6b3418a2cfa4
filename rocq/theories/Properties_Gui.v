(** The graphical interface and the obstacles of svg figures (C93, C94). *)
From Coq Require Import Reals ZArith List Lra Lia.
From Verif Require Import Svg_Model Gui_Model Gui_Spec Gui_Proofs Gui_Proofs2.
Import ListNotations.
Local Open Scope R_scope.

(* an interface of 8 x 8 meters at 50 pixels per meter *)
Definition g0 : gui := gui_init 50 8 8 0 0 20 20.
Lemma g0_frame : frame_px 8 50 = 400%Z.
Proof. unfold frame_px. replace (8 * 50) with (IZR 400) by ring. apply Int_part_IZR. Qed.
Definition session : list event := [Make (100, 100)%Z (Circ 1); Select (100, 100)%Z; Move Up; Click (3, 3)%Z; Click (390, 390)%Z; Remove].
Lemma session_ok : exists g, gui_run g0 session = Ok g.
Proof.
  unfold session. cbn [gui_run gui_step bind].
  assert (G0 : good g0) by apply init_good.
  assert (M0 : m2p g0 <> 0) by (cbn; lra).
  assert (O : obstacles (make g0 (100, 100)%Z (Circ 1)) <> []).
  { unfold make. assert (A : accepted g0 (Circ 1) = true); [|rewrite A; discriminate].
    unfold accepted, g0; cbn [m2p wpx hpx gui_init]. rewrite g0_frame. cbn [Z.eqb].
    destruct (Svg_Proofs.rltb_spec 0 1); [|lra]. destruct (Svg_Proofs.rltb_spec (1 * 50) 400); [reflexivity|lra]. }
  set (g1 := make g0 (100, 100)%Z (Circ 1)) in *.
  assert (G1 : good g1) by (apply make_good; assumption).
  set (g2 := select g1 (100, 100)%Z).
  assert (G2 : good g2) by (apply select_good; exact G1).
  destruct (gui_step g2 (Move Up)) as [g3| | | | | |] eqn:E; [|exfalso..].
  1: { cbn in E. rewrite E. cbn [bind]. eexists. reflexivity. }
  all: destruct (step_defined g2 (Move Up) G2) as (_ & Z & _); [intros g' F; rewrite E in F; discriminate|exact (O Z)].
Qed.

(* whatever the user does, the canvas shows the obstacles that are built: one item per obstacle, in the same order, at the right place and with the right size *)
Theorem C93_picture : forall m w h posx posy nx ny l g, m <> 0 ->
  gui_run (gui_init m w h posx posy nx ny) l = Ok g -> pictured g.
Proof. exact picture_kept. Qed.
Example C93_picture_ex : exists g, gui_run g0 session = Ok g /\ pictured g.
Proof.
  destruct session_ok as (g & E). exists g. split; [exact E|]. apply (C93_picture 50 8 8 0 0 20 20 session); [lra|exact E].
Qed.
Print Assumptions C93_picture.

(* the only thing that fails is moving an obstacle when there is none *)
Theorem C93_fails : forall m w h posx posy nx ny l ev g, m <> 0 ->
  gui_run (gui_init m w h posx posy nx ny) l = Ok g -> (forall g', gui_step g ev <> Ok g') ->
  gui_step g ev = IndexError /\ obstacles g = [] /\ exists d, ev = Move d.
Proof. exact gui_fails. Qed.
Example C93_fails_ex : gui_step g0 (Move Up) = IndexError.
Proof. apply (C93_fails 50 8 8 0 0 20 20 [] (Move Up) g0); [lra|reflexivity|]. intros g' E. discriminate. Qed.
Print Assumptions C93_fails.

(* pixels to meters and back *)
Theorem C93_roundtrip : forall g p, m2p g <> 0 -> world_to_pixel g (pixel_to_world g p) = p.
Proof. exact there_and_back. Qed.
Example C93_roundtrip_ex : world_to_pixel g0 (pixel_to_world g0 (3, 4)) = (3, 4).
Proof. apply C93_roundtrip. cbn. lra. Qed.
Print Assumptions C93_roundtrip.

(* clicks are moved to a grid line at most half a cell away *)
Theorem C93_snap : forall p c, (0 < c)%Z -> (c | snap p c)%Z /\ (2 * Z.abs (snap p c - p) <= c)%Z.
Proof. exact snap_near. Qed.
Example C93_snap_ex : (20 | snap 50 20)%Z /\ snap 50 20 = 40%Z.
Proof. split; [apply C93_snap; lia|reflexivity]. Qed.
Print Assumptions C93_snap.

(* both coordinates, each with its own cell size *)
Theorem C93_snap_point : forall g p, (0 < cw g)%Z -> (0 < ch g)%Z -> exists i j,
  snap_to_grid g p = (IZR (i * cw g), IZR (j * ch g)) /\
  (2 * Z.abs (i * cw g - fst p) <= cw g)%Z /\ (2 * Z.abs (j * ch g - snd p) <= ch g)%Z.
Proof. exact snap_point. Qed.
Example C93_snap_point_ex : exists i j, snap_to_grid g0 (50, 33)%Z = (IZR (i * cw g0), IZR (j * ch g0)) /\
  (2 * Z.abs (i * cw g0 - 50) <= cw g0)%Z /\ (2 * Z.abs (j * ch g0 - 33) <= ch g0)%Z.
Proof. apply (C93_snap_point g0 (50, 33)%Z); unfold g0; cbn [cw ch gui_init]; rewrite g0_frame; reflexivity. Qed.
Print Assumptions C93_snap_point.

(* and no grid line is nearer *)
Theorem C93_snap_nearest : forall p c k, (0 < c)%Z -> (Z.abs (snap p c - p) <= Z.abs (c * k - p))%Z.
Proof. exact snap_nearest. Qed.
Example C93_snap_nearest_ex : (Z.abs (snap 55 20 - 55) <= Z.abs (20 * 2 - 55))%Z.
Proof. apply C93_snap_nearest. lia. Qed.
Print Assumptions C93_snap_nearest.

Theorem C93_snap_twice : forall p c, (0 < c)%Z -> snap (snap p c) c = snap p c.
Proof. exact snap_fix. Qed.
Example C93_snap_twice_ex : snap (snap 55 20) 20 = 60%Z.
Proof. rewrite C93_snap_twice by lia. reflexivity. Qed.
Print Assumptions C93_snap_twice.

(* the grid of a loaded environment covers the frame with less than one pixel per cell to spare *)
Theorem C93_grid : forall m w h posx posy nx ny, (0 < nx)%Z -> (0 < ny)%Z ->
  let g := gui_init m w h posx posy nx ny in
  (wpx g <= fst (grid_extent g (grid_reinit nx ny)) < wpx g + nx)%Z /\
  (hpx g <= snd (grid_extent g (grid_reinit nx ny)) < hpx g + ny)%Z.
Proof. exact grid_covers. Qed.
Example C93_grid_ex : (400 <= fst (grid_extent g0 (grid_reinit 20 20)))%Z.
Proof. pose proof (proj1 (proj1 (C93_grid 50 8 8 0 0 20 20 ltac:(lia) ltac:(lia)))) as H. cbn [wpx gui_init] in H. rewrite g0_frame in H. exact H. Qed.
Print Assumptions C93_grid.

(* the first grid only with as many rows as columns *)
Theorem C93_grid_square : forall m w h posx posy n, (0 < n)%Z ->
  let g := gui_init m w h posx posy n n in
  (wpx g <= fst (grid_extent g (grid_init n n)))%Z /\ (hpx g <= snd (grid_extent g (grid_init n n)))%Z.
Proof. exact grid_square. Qed.
Example C93_grid_square_ex : (400 <= fst (grid_extent g0 (grid_init 20 20)))%Z.
Proof. pose proof (proj1 (C93_grid_square 50 8 8 0 0 20 ltac:(lia))) as H. cbn [wpx gui_init] in H. rewrite g0_frame in H. exact H. Qed.
Print Assumptions C93_grid_square.

(* rows and columns are exchanged *)
Theorem C93_grid_refuted : exists m w h posx posy nx ny, (0 < nx)%Z /\ (0 < ny)%Z /\
  let g := gui_init m w h posx posy nx ny in (fst (grid_extent g (grid_init nx ny)) < wpx g)%Z.
Proof. exact grid_refuted. Qed.
Print Assumptions C93_grid_refuted.

(* start and goal are the last two right clicks *)
Theorem C93_last_two_clicks : forall m w h posx posy nx ny l g, gui_run (gui_init m w h posx posy nx ny) l = Ok g ->
  clicks g = map (fun p => pixel_to_world g (IZR (fst p), IZR (snd p))) (last2 (right_clicks l)).
Proof. exact last_two_clicks. Qed.
Example C93_last_two_clicks_ex : exists g, gui_run g0 session = Ok g /\ length (clicks g) = 2%nat.
Proof.
  destruct session_ok as (g & E). exists g. split; [exact E|]. rewrite (C93_last_two_clicks 50 8 8 0 0 20 20 session g E). reflexivity.
Qed.
Print Assumptions C93_last_two_clicks.

(* and the points of the canvas that were clicked, when the frame is at the origin *)
Theorem C93_clicks : forall m w h nx ny l g, m <> 0 -> gui_run (gui_init m w h 0 0 nx ny) l = Ok g ->
  clicks g = map (fun p => canvas_point g (IZR (fst p), IZR (snd p))) (last2 (right_clicks l)).
Proof. exact clicks_shown. Qed.
Example C93_clicks_ex : exists g, gui_run g0 session = Ok g /\ clicks g = map (fun p => canvas_point g (IZR (fst p), IZR (snd p))) [(3, 3)%Z; (390, 390)%Z].
Proof.
  destruct session_ok as (g & E). exists g. split; [exact E|]. rewrite (C93_clicks 50 8 8 20 20 session g); [reflexivity|lra|exact E].
Qed.
Print Assumptions C93_clicks.

(* otherwise they are off by the position of the frame *)
Theorem C93_clicks_off : forall m w h posx posy nx ny l g, m <> 0 -> gui_run (gui_init m w h posx posy nx ny) l = Ok g ->
  clicks g = map (fun p => padd (canvas_point g (IZR (fst p), IZR (snd p))) (- posx, posy)) (last2 (right_clicks l)).
Proof. exact clicks_off. Qed.
Example C93_clicks_off_ex : exists g, gui_run (gui_init 50 8 8 3 1 20 20) [Click (100, 100)%Z] = Ok g /\
  clicks g = [padd (canvas_point g (100, 100)) (-3, 1)].
Proof. eexists. split; [reflexivity|]. etransitivity; [apply (C93_clicks_off 50 8 8 3 1 20 20 [Click (100, 100)%Z]); [lra|reflexivity]|]. reflexivity. Qed.
Print Assumptions C93_clicks_off.

(* a right click in the middle of an obstacle is not in the obstacle *)
Theorem C93_clicks_refuted : exists g0 l g, gui_run g0 l = Ok g /\ g0 = gui_init 50 8 8 3 0 20 20 /\ l = [Make (100, 100)%Z (Circ 1); Click (100, 100)%Z] /\
  exists o, obstacles g = [o] /\ forall c, In c (clicks g) -> ~ in_shape (o_shape o) (o_pos o) c.
Proof. exact clicks_refuted. Qed.
Print Assumptions C93_clicks_refuted.

(* an environment is built once there have been two right clicks *)
Theorem C93_build : forall m w h posx posy nx ny l g, gui_run (gui_init m w h posx posy nx ny) l = Ok g ->
  (build_environment g = None <-> (length (right_clicks l) < 2)%nat).
Proof. exact build_defined. Qed.
Example C93_build_ex : build_environment g0 = None.
Proof. apply (C93_build 50 8 8 0 0 20 20 [] g0 eq_refl). cbn. lia. Qed.
Print Assumptions C93_build.

(* frames of a whole number of pixels: the room is what the canvas shows, with the obstacles of the list *)
Theorem C93_room : forall m w h posx posy nx ny l g W H c wh os, 0 < m -> w * m = IZR W -> h * m = IZR H ->
  gui_run (gui_init m w h posx posy nx ny) l = Ok g -> build_environment g = Some (c, wh, os) ->
  os = map (fun o => (o_shape o, o_pos o)) (obstacles g) /\
  (forall p, 0 <= fst p <= IZR W /\ 0 <= snd p <= IZR H <-> in_rect c (fst wh) (snd wh) (canvas_point g p)).
Proof. exact room_is_canvas. Qed.
Example C93_room_ex : exists g c wh os, gui_run g0 session = Ok g /\ build_environment g = Some (c, wh, os) /\
  (forall p, 0 <= fst p <= 400 /\ 0 <= snd p <= 400 <-> in_rect c (fst wh) (snd wh) (canvas_point g p)).
Proof.
  destruct session_ok as (g & E).
  destruct (build_environment g) as [[[c wh] os]|] eqn:B.
  - exists g, c, wh, os. split; [exact E|]. split; [exact B|].
    apply (C93_room 50 8 8 0 0 20 20 session g 400 400 c wh os); try lra; assumption.
  - exfalso. apply (C93_build 50 8 8 0 0 20 20 session g E) in B. cbn in B. lia.
Qed.
Print Assumptions C93_room.

(* the first obstacle that is hit is selected *)
Theorem C93_select : forall p l s v, l <> [] -> (select_loop p l s = Some v <->
  exists l1 o l2, l = l1 ++ o :: l2 /\ o_var o = v /\ hit p o = true /\ Forall (fun o => hit p o = false) l1).
Proof. exact select_first. Qed.
Example C93_select_ex : select_loop (0, 0) [{| o_shape := Circ 1; o_pos := (0, 0); o_var := 7 |}] None = Some 7%nat.
Proof.
  apply C93_select; [discriminate|]. exists [], {| o_shape := Circ 1; o_pos := (0, 0); o_var := 7 |}, []. repeat split; [|constructor].
  apply (proj2 (hit_circle (0, 0) {| o_shape := Circ 1; o_pos := (0, 0); o_var := 7 |} 1 eq_refl)). cbn. unfold in_disc, Rsqr; cbn. lra.
Qed.
Print Assumptions C93_select.

(* circles are hit exactly where they are *)
Theorem C93_select_circle : forall p o r, o_shape o = Circ r -> hit p o = true <-> in_shape (o_shape o) (o_pos o) p.
Proof. exact hit_circle. Qed.
Example C93_select_circle_ex : hit (1, 0) {| o_shape := Circ 1; o_pos := (0, 0); o_var := 7 |} = true.
Proof. apply (proj2 (C93_select_circle (1, 0) {| o_shape := Circ 1; o_pos := (0, 0); o_var := 7 |} 1 eq_refl)). cbn. unfold in_disc, Rsqr; cbn. lra. Qed.
Print Assumptions C93_select_circle.

(* rectangles are hit within twice their size *)
Theorem C93_select_rect : forall p o w h, o_shape o = Rect w h -> hit p o = true <-> in_rect (o_pos o) (2 * w) (2 * h) p.
Proof. exact hit_rect. Qed.
Example C93_select_rect_ex : hit (1, 1) {| o_shape := Rect 1 1; o_pos := (0, 0); o_var := 7 |} = true.
Proof. apply (proj2 (C93_select_rect (1, 1) {| o_shape := Rect 1 1; o_pos := (0, 0); o_var := 7 |} 1 1 eq_refl)). unfold in_rect; cbn. rewrite !Rabs_le_iff. lra. Qed.
Print Assumptions C93_select_rect.

Theorem C93_select_rect_refuted : exists p o, hit p o = true /\ ~ in_shape (o_shape o) (o_pos o) p.
Proof. exact select_rect_refuted. Qed.
Print Assumptions C93_select_rect_refuted.

(* rectangles must be smaller than the frame *)
Theorem C93_accepted : forall g w h, accepted g (Rect w h) = true <-> 0 < w /\ 0 < h /\ w * m2p g < IZR (wpx g) /\ h * m2p g < IZR (hpx g).
Proof. exact accepted_rect. Qed.
Example C93_accepted_ex : accepted g0 (Rect 1 1) = true.
Proof. apply C93_accepted. cbn [m2p g0 gui_init wpx hpx]. rewrite g0_frame. lra. Qed.
Print Assumptions C93_accepted.

(* circles only smaller than its width *)
Theorem C93_accepted_refuted : exists g r, accepted g (Circ r) = true /\ IZR (hpx g) < r * m2p g /\ g = gui_init 50 8 2 0 0 20 20.
Proof. exact accepted_circle_refuted. Qed.
Print Assumptions C93_accepted_refuted.

(* an arrow moves an obstacle by one cell, up in the picture is up in the world *)
Theorem C93_move : forall g o d, m2p g <> 0 ->
  pixel_to_world g (padd (world_to_pixel g o) (step_px g d)) = padd o (fst (step_px g d) / m2p g, - snd (step_px g d) / m2p g).
Proof. exact moved_pos. Qed.
Example C93_move_ex : pixel_to_world g0 (padd (world_to_pixel g0 (1, 1)) (step_px g0 Up)) = padd (1, 1) (0 / 50, - - IZR (ch g0) / 50).
Proof. apply (C93_move g0 (1, 1) Up). cbn. lra. Qed.
Print Assumptions C93_move.

(* and the opposite arrow moves it back *)
Theorem C93_move_back : forall g o d d', m2p g <> 0 -> padd (step_px g d) (step_px g d') = (0, 0) ->
  pixel_to_world g (padd (world_to_pixel g (pixel_to_world g (padd (world_to_pixel g o) (step_px g d)))) (step_px g d')) = o.
Proof. exact moved_twice. Qed.
Example C93_move_back_ex : pixel_to_world g0 (padd (world_to_pixel g0 (pixel_to_world g0 (padd (world_to_pixel g0 (1, 1)) (step_px g0 Left)))) (step_px g0 Right)) = (1, 1).
Proof. apply (C93_move_back g0 (1, 1) Left Right); [cbn; lra|]. unfold padd; cbn [step_px fst snd]. f_equal; ring. Qed.
Print Assumptions C93_move_back.

(* with a margin, start and goal are inside a room at the origin *)
Theorem C93_margin : forall g mg p, 0 < mg -> 101/100 * mg < wm g -> 101/100 * mg < hm g -> In p (clicked_positions g (Some mg)) ->
  0 < fst p < wm g /\ 0 < snd p < hm g.
Proof. exact clicked_inside. Qed.
Example C93_margin_ex : 0 < clamp 0 8 1 9 < 8.
Proof. apply clamp_inside; lra. Qed.
Example C93_margin_ex2 : exists g p, gui_run g0 [Click (-50, 450)%Z] = Ok g /\ In p (clicked_positions g (Some 1)) /\ 0 < fst p < 8 /\ 0 < snd p < 8.
Proof.
  eexists _, _. split; [reflexivity|]. split; [left; reflexivity|].
  match goal with |- 0 < fst ?q < _ /\ _ => assert (H : In q (clicked_positions (click g0 (-50, 450)%Z) (Some 1))) by (left; reflexivity) end.
  apply (C93_margin (click g0 (-50, 450)%Z) 1 _ ltac:(lra) ltac:(cbn; lra) ltac:(cbn; lra) H).
Qed.
Print Assumptions C93_margin.

(* clicks outside the room end more than the margin away from the walls *)
Theorem C93_margin_outside : forall lo hi mg x, 0 < mg -> 202/100 * mg < hi - lo -> x <= lo \/ hi <= x ->
  lo + mg < clamp lo hi mg x < hi - mg.
Proof. exact clamp_margin. Qed.
Example C93_margin_outside_ex : 1 < clamp 0 8 1 9 < 7.
Proof. pose proof (C93_margin_outside 0 8 1 9 ltac:(lra) ltac:(lra) ltac:(lra)). lra. Qed.
Print Assumptions C93_margin_outside.

(* but they can be nearer to the border than the margin *)
Theorem C93_margin_refuted : exists lo hi mg x, 0 < mg /\ 202/100 * mg <= hi - lo /\ ~ lo + mg <= clamp lo hi mg x.
Proof. exact clamp_refuted. Qed.
Print Assumptions C93_margin_refuted.

(* a loaded obstacle is drawn where it is exactly when the frame is at the origin *)
Theorem C93_load : forall g o, m2p g <> 0 -> (box_shows g (load_box g o) o <-> px g = 0 /\ py g = 0).
Proof. exact load_shows. Qed.
Example C93_load_ex : forall o, box_shows g0 (load_box g0 o) o.
Proof. intro o. apply C93_load; [cbn; lra|]. split; cbn; ring. Qed.
Print Assumptions C93_load.

(* a rectangle of a translated figure becomes the obstacle that covers it *)
Theorem C94_rect : forall g t x y w h, 0 < m2p g -> px g = 0 -> py g = 0 ->
  exists s c, add_obstacle g (rect_obstacle (TArray t) x y w h) = Ok (s, c) /\
    forall p, in_shape s c (canvas_point g p) <-> rect_pixels (x + fst t) (y + snd t) w h p.
Proof. exact svg_rect. Qed.
Example C94_rect_ex : exists s c, add_obstacle g0 (rect_obstacle (TArray (1, 2)) 0 0 10 20) = Ok (s, c) /\
  forall p, in_shape s c (canvas_point g0 p) <-> rect_pixels (0 + 1) (0 + 2) 10 20 p.
Proof. apply (C94_rect g0 (1, 2) 0 0 10 20); cbn; lra. Qed.
Print Assumptions C94_rect.

(* and so does a circle *)
Theorem C94_circle : forall g t cx cy r, 0 < m2p g -> px g = 0 -> py g = 0 -> 0 <= r ->
  exists s c, add_obstacle g (circle_obstacle (TArray t) cx cy r) = Ok (s, c) /\
    forall p, in_shape s c (canvas_point g p) <-> in_disc (cx + fst t, cy + snd t) r p.
Proof. exact svg_circle. Qed.
Example C94_circle_ex : exists s c, add_obstacle g0 (circle_obstacle (TArray (1, 2)) 0 0 10) = Ok (s, c) /\
  forall p, in_shape s c (canvas_point g0 p) <-> in_disc (0 + 1, 0 + 2) 10 p.
Proof. apply (C94_circle g0 (1, 2) 0 0 10); cbn; lra. Qed.
Print Assumptions C94_circle.

(* neither can be loaded from a figure without a translation *)
Theorem C94_no_transform_refuted : forall g x y w h, add_obstacle g (rect_obstacle TNone x y w h) = ValueError /\ add_obstacle g (circle_obstacle TNone x y w) = ValueError.
Proof. exact svg_none_refuted. Qed.
Example C94_no_transform_refuted_ex : add_obstacle g0 (rect_obstacle TNone 0 0 1 1) = ValueError.
Proof. apply (C94_no_transform_refuted g0 0 0 1 1). Qed.
Print Assumptions C94_no_transform_refuted.

(* horizontal and vertical lines are converted, others refused *)
Theorem C94_line_defined : forall a b s, (exists o, line_obstacle a b s = Ok o) <-> fst a = fst b \/ snd a = snd b.
Proof. exact line_defined. Qed.
Example C94_line_defined_ex : exists o, line_obstacle (0, 0) (0, 5) 1 = Ok o.
Proof. apply C94_line_defined. left. reflexivity. Qed.
Print Assumptions C94_line_defined.

(* to a rectangle as long and as wide as the stroke but pushed aside by half its width *)
Theorem C94_line : forall a b s, fst a = fst b \/ snd a = snd b -> a <> b -> 0 <= s ->
  exists w h u v, line_obstacle a b s = Ok {| s_shape := Rect w h; s_pos := [u; v] |} /\
    forall p, in_rect (u, v) w h p <-> stroke_pixels a b s (psub p (aside a b s)).
Proof. exact line_covers. Qed.
Example C94_line_ex : exists w h u v, line_obstacle (0, 0) (0, 5) 1 = Ok {| s_shape := Rect w h; s_pos := [u; v] |} /\
  forall p, in_rect (u, v) w h p <-> stroke_pixels (0, 0) (0, 5) 1 (psub p (aside (0, 0) (0, 5) 1)).
Proof. apply C94_line; [left; reflexivity|intro Z; injection Z as Z; lra|lra]. Qed.
Print Assumptions C94_line.

(* so that half of the stroke is free *)
Theorem C94_line_refuted : exists a b s p o, stroke_pixels a b s p /\ line_obstacle a b s = Ok o /\
  match s_shape o, s_pos o with Rect w h, [u; v] => ~ in_rect (u, v) w h p | _, _ => False end.
Proof. exact line_refuted. Qed.
Print Assumptions C94_line_refuted.

(* one rectangle per stretch of a polyline *)
Theorem C94_polyline_length : forall l s os, polyline_obstacles l s = Ok os -> length os = (length l - 1)%nat.
Proof. exact polyline_length. Qed.
Example C94_polyline_length_ex : forall os, polyline_obstacles [(0, 0); (0, 5); (5, 5)] 1 = Ok os -> length os = 2%nat.
Proof. intros os E. apply (C94_polyline_length _ _ _ E). Qed.
Print Assumptions C94_polyline_length.

(* that of the stretch *)
Theorem C94_polyline : forall l s os i, polyline_obstacles l s = Ok os -> (S i < length l)%nat ->
  line_obstacle (nth i l (0, 0)) (nth (S i) l (0, 0)) s = Ok (nth i os {| s_shape := Circ 0; s_pos := [] |}).
Proof. exact polyline_each. Qed.
Example C94_polyline_ex : forall os, polyline_obstacles [(0, 0); (0, 5); (5, 5)] 1 = Ok os ->
  line_obstacle (0, 5) (5, 5) 1 = Ok (nth 1 os {| s_shape := Circ 0; s_pos := [] |}).
Proof. intros os E. apply (C94_polyline _ _ _ 1 E). cbn. lia. Qed.
Print Assumptions C94_polyline.
