(** Start and goal, room, selection and svg obstacles (Gui_Model.v). *)
From Coq Require Import Reals ZArith List Bool Lra Lia Psatz.
From Verif Require Import Svg_Model Svg_Proofs Svg_Proofs2 Svg_Proofs3 Gui_Model Gui_Spec Gui_Proofs.
Import ListNotations.
Local Open Scope R_scope.

Lemma rleb_spec : forall a b, reflect (a <= b) (rleb a b).
Proof. intros a b. unfold rleb. destruct (Rle_dec a b); constructor; assumption. Qed.

(* ---- start and goal ---------------------------------------------------------- *)
Lemma last2_snoc : forall {A} (l : list A) a, last2 (l ++ [a]) =
  if (2 <? length (last2 l ++ [a]))%nat then tl (last2 l ++ [a]) else last2 l ++ [a].
Proof.
  intros A l a. unfold last2. rewrite app_length. cbn [length].
  destruct (Nat.ltb_spec 2 (length (skipn (length l - 2) l ++ [a]))) as [H|H]; rewrite app_length, skipn_length in H; cbn [length] in H.
  - replace (length l + 1 - 2)%nat with (S (length l - 2)) by lia.
    assert (K : forall n (l : list A), (n < length l)%nat -> skipn (S n) (l ++ [a]) = tl (skipn n l ++ [a])).
    { clear. induction n as [|n IH]; intros [|x l] H; cbn in H; try lia; [reflexivity|]. cbn [skipn app]. change (skipn n (l ++ [a])) with (skipn n (l ++ [a])).
      rewrite <- IH by lia. reflexivity. }
    apply K. lia.
  - replace (length l + 1 - 2)%nat with 0%nat by lia. replace (length l - 2)%nat with 0%nat by lia. reflexivity.
Qed.

Lemma click_clicks : forall g p, (length (clicks g) <= 2)%nat -> clicks (click g p) =
  let l := clicks g ++ [pixel_to_world g (IZR (fst p), IZR (snd p))] in if (2 <? length l)%nat then tl l else l.
Proof.
  intros g p H. unfold click; cbn [clicks]. destruct (clicks g) as [|a [|b [|c l]]]; cbn in *; try reflexivity. lia.
Qed.

Definition world_click (g : gui) (p : Z * Z) : pt := pixel_to_world g (IZR (fst p), IZR (snd p)).

Lemma step_clicks : forall g ev g' hist, clicks g = map (world_click g) (last2 hist) -> gui_step g ev = Ok g' ->
  clicks g' = map (world_click g') (last2 (hist ++ right_clicks [ev])).
Proof.
  intros g ev g' hist C E.
  assert (W : forall p, world_click g' p = world_click g p).
  { intro p. destruct (step_frame _ _ _ E) as (A & _ & B & _ & D & _). unfold world_click, pixel_to_world. rewrite A, B, D. reflexivity. }
  rewrite (map_ext _ _ W). clear W.
  destruct ev as [p s|p| |d|p]; cbn [right_clicks flat_map app] in *; rewrite ?app_nil_r.
  - cbn in E. injection E as <-. unfold make. destruct (accepted g s); exact C.
  - cbn in E. injection E as <-. exact C.
  - cbn in E. injection E as <-. unfold remove. destruct (sel g); [exact C|]. destruct (obstacles g); exact C.
  - cbn in E. unfold move in E. apply bind_ok in E. destruct E as (v & _ & E). destruct (existsb _ _); [|discriminate]. injection E as <-. exact C.
  - cbn [gui_step] in E. injection E as E. subst g'.
    assert (L : (length (clicks g) <= 2)%nat). { rewrite C, map_length. unfold last2. rewrite skipn_length. lia. }
    rewrite (click_clicks g p L). rewrite last2_snoc, C. cbv zeta. rewrite !app_length, map_length. cbn [length].
    change [pixel_to_world g (IZR (fst p), IZR (snd p))] with (map (world_click g) [p]). rewrite <- map_app.
    destruct (2 <? _)%nat; [|reflexivity]. destruct (last2 hist ++ [p]); reflexivity.
Qed.

Lemma run_clicks : forall l g g' hist, clicks g = map (world_click g) (last2 hist) -> gui_run g l = Ok g' ->
  clicks g' = map (world_click g') (last2 (hist ++ right_clicks l)).
Proof.
  induction l as [|ev l IH]; intros g g' hist C E.
  { injection E as <-. cbn. rewrite app_nil_r. exact C. }
  cbn [gui_run] in E. apply bind_ok in E. destruct E as (g1 & E1 & E).
  rewrite (IH g1 g' (hist ++ right_clicks [ev])); [|apply (step_clicks g); assumption|exact E].
  unfold right_clicks. cbn [flat_map]. rewrite app_nil_r, app_assoc. reflexivity.
Qed.

(* start and goal are the last two right clicks *)
Lemma last_two_clicks : forall m w h posx posy nx ny l g, gui_run (gui_init m w h posx posy nx ny) l = Ok g ->
  clicks g = map (fun p => pixel_to_world g (IZR (fst p), IZR (snd p))) (last2 (right_clicks l)).
Proof. intros m w h posx posy nx ny l g E. apply (run_clicks l (gui_init m w h posx posy nx ny) g []); [reflexivity|exact E]. Qed.

(* and the points of the canvas that were clicked, when the frame is at the origin *)
Lemma clicks_shown : forall m w h nx ny l g, m <> 0 -> gui_run (gui_init m w h 0 0 nx ny) l = Ok g ->
  clicks g = map (fun p => canvas_point g (IZR (fst p), IZR (snd p))) (last2 (right_clicks l)).
Proof.
  intros m w h nx ny l g M E. rewrite (last_two_clicks _ _ _ _ _ _ _ _ _ E).
  destruct (run_good l (gui_init m w h 0 0 nx ny) g M (init_good _ _ _ _ _ _ _) E) as [_ (A & B & C & _)]. cbn in A, B, C.
  apply map_ext. intro p. rewrite click_offset by (rewrite A; exact M). rewrite B, C. unfold padd; cbn [fst snd]. 
  apply pt_eq; cbn [fst snd]; rewrite A; unfold Rdiv; rewrite ?Rmult_0_l, ?Ropp_0, ?Rmult_0_l, Rplus_0_r; reflexivity.
Qed.

(* otherwise they are off by the position of the frame *)
Lemma clicks_off : forall m w h posx posy nx ny l g, m <> 0 -> gui_run (gui_init m w h posx posy nx ny) l = Ok g ->
  clicks g = map (fun p => padd (canvas_point g (IZR (fst p), IZR (snd p))) (- posx, posy)) (last2 (right_clicks l)).
Proof.
  intros m w h posx posy nx ny l g M E. rewrite (last_two_clicks _ _ _ _ _ _ _ _ _ E).
  destruct (run_good l (gui_init m w h posx posy nx ny) g M (init_good _ _ _ _ _ _ _) E) as [_ (A & B & C & _)]. cbn in A, B, C.
  apply map_ext. intro p. rewrite click_offset by (rewrite A; exact M). f_equal. rewrite A, B, C. apply pt_eq; cbn [fst snd]; field; exact M.
Qed.

(* a click on an obstacle is not in the obstacle *)
Lemma clicks_refuted : exists g0 l g, gui_run g0 l = Ok g /\ g0 = gui_init 50 8 8 3 0 20 20 /\ l = [Make (100, 100)%Z (Circ 1); Click (100, 100)%Z] /\
  exists o, obstacles g = [o] /\ forall c, In c (clicks g) -> ~ in_shape (o_shape o) (o_pos o) c.
Proof.
  exists (gui_init 50 8 8 3 0 20 20). exists [Make (100, 100)%Z (Circ 1); Click (100, 100)%Z].
  assert (A : accepted (gui_init 50 8 8 3 0 20 20) (Circ 1) = true).
  { unfold accepted; cbn [m2p wpx hpx gui_init]. unfold frame_px. replace (8 * 50) with (IZR 400) by ring. rewrite Int_part_IZR.
    cbn [Z.eqb]. destruct (rltb_spec 0 1); [|lra]. destruct (rltb_spec (1 * 50) 400); [reflexivity|lra]. }
  assert (W : frame_px 8 50 = 400%Z) by (unfold frame_px; replace (8 * 50) with (IZR 400) by ring; apply Int_part_IZR).
  eexists. split; [cbn [gui_run gui_step bind]; unfold make; rewrite A; reflexivity|]. split; [reflexivity|]. split; [reflexivity|].
  eexists. split; [cbn; reflexivity|]. intros c I. cbn [clicks click set_obstacles gui_init app length Nat.ltb Nat.leb] in I. destruct I as [I|[]]. subst c.
  cbn [o_shape o_pos in_shape]. intros [_ H]. unfold in_disc, pixel_to_world, snap_to_grid, Rsqr in H.
  cbn [fst snd px py m2p hpx cw ch gui_init set_obstacles] in H. rewrite W in H.
  change (snap 100 (cell 400 20)) with 100%Z in H.
  cbn in H. lra.
Qed.

(* ---- the room ------------------------------------------------------------------ *)
Lemma build_defined : forall m w h posx posy nx ny l g, gui_run (gui_init m w h posx posy nx ny) l = Ok g ->
  (build_environment g = None <-> (length (right_clicks l) < 2)%nat).
Proof.
  intros m w h posx posy nx ny l g E. unfold build_environment. rewrite (last_two_clicks _ _ _ _ _ _ _ _ _ E), map_length. unfold last2. rewrite skipn_length.
  destruct (Nat.eqb_spec (length (right_clicks l) - (length (right_clicks l) - 2)) 2); split; intro H; try discriminate; try reflexivity; lia.
Qed.

(* a frame of a whole number of pixels: the canvas is the room *)
Lemma room_is_canvas : forall m w h posx posy nx ny l g W H c wh os, 0 < m -> w * m = IZR W -> h * m = IZR H ->
  gui_run (gui_init m w h posx posy nx ny) l = Ok g -> build_environment g = Some (c, wh, os) ->
  os = map (fun o => (o_shape o, o_pos o)) (obstacles g) /\
  (forall p, 0 <= fst p <= IZR W /\ 0 <= snd p <= IZR H <-> in_rect c (fst wh) (snd wh) (canvas_point g p)).
Proof.
  intros m w h posx posy nx ny l g W H c wh os M Ew Eh E B. unfold build_environment in B. destruct (Nat.eqb _ _); [|discriminate]. injection B as <- <- <-.
  split; [reflexivity|]. assert (M0 : m <> 0) by lra.
  destruct (run_good l (gui_init m w h posx posy nx ny) g M0 (init_good _ _ _ _ _ _ _) E) as [_ (A1 & A2 & A3 & A4 & A5 & A6 & A7 & _)]. cbn in *.
  assert (Hp : hpx g = H) by (rewrite A5; unfold frame_px; rewrite Eh; apply Int_part_IZR).
  intros [u v]. unfold in_rect, canvas_point; cbn [fst snd]. rewrite A1, A2, A3, A6, A7, Hp.
  replace (posx * m / m + u / m - (posx * m * 1 / m + w * (1 / 2))) with ((2 * u - IZR W) / m / 2) by (rewrite <- Ew; field; lra).
  replace (posy * m / m + (IZR H - v) / m - (posy * m * 1 / m + h * (1 / 2))) with ((IZR H - 2 * v) / m / 2) by (rewrite <- Eh; field; lra).
  replace (w / 2) with (IZR W / m / 2) by (rewrite <- Ew; field; lra). replace (h / 2) with (IZR H / m / 2) by (rewrite <- Eh; field; lra).
  assert (K : forall x y, Rabs (x / m / 2) <= y / m / 2 <-> - y <= x <= y).
  { intros x y. assert (Mi : 0 < / m) by (apply Rinv_0_lt_compat, M). unfold Rdiv.
    rewrite !Rabs_mult, (Rabs_right (/ m)) by lra. rewrite (Rabs_right (/ 2)) by lra.
    split; intro Q.
    - assert (Rabs x <= y). { apply Rmult_le_reg_r with (/ m); [exact Mi|]. lra. } unfold Rabs in *; destruct (Rcase_abs x); lra.
    - assert (Rabs x <= y) by (apply Rabs_le; exact Q). assert (Rabs x * / m <= y * / m) by (apply Rmult_le_compat_r; lra). lra. }
  rewrite !K. lra.
Qed.

(* ---- selection -------------------------------------------------------------------- *)
Lemma hit_circle : forall p o r, o_shape o = Circ r -> hit p o = true <-> in_shape (o_shape o) (o_pos o) p.
Proof.
  intros p o r S. unfold hit. rewrite S. cbn [in_shape]. unfold in_disc, dist, Rsqr.
  set (q := (fst p - fst (o_pos o)) * (fst p - fst (o_pos o)) + (snd p - snd (o_pos o)) * (snd p - snd (o_pos o))).
  assert (Q : 0 <= q). { unfold q. pose proof (Rle_0_sqr (fst p - fst (o_pos o))). pose proof (Rle_0_sqr (snd p - snd (o_pos o))). unfold Rsqr in *. lra. }
  destruct (rleb_spec (sqrt q) r) as [H|H]; split; intro K; try reflexivity; try discriminate.
  - pose proof (sqrt_pos q). split; [lra|]. rewrite <- (sqrt_sqrt q Q). apply Rmult_le_compat; lra.
  - exfalso. apply H. destruct K as [K1 K2]. apply sqrt_le_1 in K2; [|exact Q|nra]. rewrite sqrt_square in K2; assumption.
Qed.

Lemma Rabs_le_iff : forall a b, Rabs a <= b <-> - b <= a <= b.
Proof. intros a b. split; intro H; [|apply Rabs_le, H]. unfold Rabs in H. destruct (Rcase_abs a); lra. Qed.

(* a rectangle is selected from twice its size *)
Lemma hit_rect : forall p o w h, o_shape o = Rect w h -> hit p o = true <-> in_rect (o_pos o) (2 * w) (2 * h) p.
Proof.
  intros p o w h S. unfold hit. rewrite S. unfold in_rect. rewrite !Rabs_le_iff, !andb_true_iff.
  replace (2 * w / 2) with w by field. replace (2 * h / 2) with h by field.
  destruct (rleb_spec (fst (o_pos o) - w) (fst p)), (rleb_spec (fst p) (fst (o_pos o) + w)),
    (rleb_spec (snd (o_pos o) - h) (snd p)), (rleb_spec (snd p) (snd (o_pos o) + h)); split; intro K;
    try (repeat split; (reflexivity || lra)); try (exfalso; lra); try (destruct K as [[[? ?] ?] ?]; discriminate).
Qed.

Lemma select_rect_refuted : exists p o, hit p o = true /\ ~ in_shape (o_shape o) (o_pos o) p.
Proof.
  exists (1, 0), {| o_shape := Rect 1 1; o_pos := (0, 0); o_var := 0 |}. split.
  - apply (proj2 (hit_rect (1, 0) {| o_shape := Rect 1 1; o_pos := (0, 0); o_var := 0 |} 1 1 eq_refl)). unfold in_rect; cbn. rewrite !Rabs_le_iff. lra.
  - cbn. unfold in_rect; cbn. rewrite !Rabs_le_iff. lra.
Qed.

(* the first obstacle that is hit is selected *)
Lemma select_first : forall p l s v, l <> [] -> (select_loop p l s = Some v <->
  exists l1 o l2, l = l1 ++ o :: l2 /\ o_var o = v /\ hit p o = true /\ Forall (fun o => hit p o = false) l1).
Proof.
  intros p l. induction l as [|o l IH]; intros s v N; [congruence|]. cbn. destruct (hit p o) eqn:H.
  - split.
    + intro E. injection E as <-. exists [], o, l. repeat split; auto.
    + intros ([|a l1] & q & l2 & E & V & Hq & F).
      * injection E as <- _. now rewrite V.
      * injection E as <- _. inversion F; subst. congruence.
  - destruct l as [|a l].
    + cbn. split; [discriminate|]. intros ([|b l1] & q & l2 & E & V & Hq & F).
      * injection E as <- _. congruence.
      * injection E as _ E. destruct l1; discriminate.
    + rewrite (IH None v) by discriminate. split.
      * intros (l1 & q & l2 & E & V & Hq & F). exists (o :: l1), q, l2. rewrite E. repeat split; auto.
      * intros ([|b l1] & q & l2 & E & V & Hq & F).
        -- injection E as <- _. congruence.
        -- injection E as _ E. inversion F; subst. exists l1, q, l2. repeat split; auto.
Qed.

(* a circle that is higher than the frame is accepted *)
Lemma accepted_circle_refuted : exists g r, accepted g (Circ r) = true /\ IZR (hpx g) < r * m2p g /\ g = gui_init 50 8 2 0 0 20 20.
Proof.
  exists (gui_init 50 8 2 0 0 20 20), 3. 
  assert (W : frame_px 8 50 = 400%Z) by (unfold frame_px; replace (8 * 50) with (IZR 400) by ring; apply Int_part_IZR).
  assert (H : frame_px 2 50 = 100%Z) by (unfold frame_px; replace (2 * 50) with (IZR 100) by ring; apply Int_part_IZR).
  unfold accepted; cbn [m2p wpx hpx gui_init]. rewrite W, H. cbn [Z.eqb]. split; [|split; [lra|reflexivity]].
  destruct (rltb_spec 0 3); [|lra]. destruct (rltb_spec (3 * 50) 400); [reflexivity|lra].
Qed.

(* accepted rectangles are smaller than the frame *)
Lemma accepted_rect : forall g w h, accepted g (Rect w h) = true <-> 0 < w /\ 0 < h /\ w * m2p g < IZR (wpx g) /\ h * m2p g < IZR (hpx g).
Proof.
  intros g w h. unfold accepted. rewrite !andb_true_iff.
  destruct (rltb_spec 0 w), (rltb_spec 0 h), (rltb_spec (w * m2p g) (IZR (wpx g))), (rltb_spec (h * m2p g) (IZR (hpx g)));
    split; intro K; try (repeat split; (reflexivity || assumption)); try (exfalso; lra); destruct K as [[[? ?] ?] ?]; discriminate.
Qed.

(* ---- moving ------------------------------------------------------------------------- *)
Lemma moved_twice : forall g o d d', m2p g <> 0 -> padd (step_px g d) (step_px g d') = (0, 0) ->
  pixel_to_world g (padd (world_to_pixel g (pixel_to_world g (padd (world_to_pixel g o) (step_px g d)))) (step_px g d')) = o.
Proof.
  intros g o d d' M E. rewrite there_and_back by exact M.
  assert (Z : padd (padd (world_to_pixel g o) (step_px g d)) (step_px g d') = world_to_pixel g o).
  { assert (E1 : fst (step_px g d) + fst (step_px g d') = 0) by (change (fst (padd (step_px g d) (step_px g d')) = 0); now rewrite E).
    assert (E2 : snd (step_px g d) + snd (step_px g d') = 0) by (change (snd (padd (step_px g d) (step_px g d')) = 0); now rewrite E).
    apply pt_eq; cbn [padd fst snd]; lra. }
  rewrite Z. apply back_and_there, M.
Qed.

(* ---- clicks near the border ----------------------------------------------------------- *)
Lemma clamp_inside : forall lo hi mg x, 0 < mg -> 101/100 * mg < hi - lo -> lo < clamp lo hi mg x < hi.
Proof. intros lo hi mg x M H. unfold clamp. destruct (rleb_spec x lo); [lra|]. destruct (rleb_spec hi x); lra. Qed.
Lemma clamp_margin : forall lo hi mg x, 0 < mg -> 202/100 * mg < hi - lo -> x <= lo \/ hi <= x ->
  lo + mg < clamp lo hi mg x < hi - mg.
Proof. intros lo hi mg x M H K. unfold clamp. destruct (rleb_spec x lo); [lra|]. destruct (rleb_spec hi x); lra. Qed.
(* a click inside the frame but nearer to the border than the margin stays *)
Lemma clamp_refuted : exists lo hi mg x, 0 < mg /\ 202/100 * mg <= hi - lo /\ ~ lo + mg <= clamp lo hi mg x.
Proof.
  exists 0, 8, 1, (1/2). split; [lra|]. split; [lra|]. unfold clamp. destruct (rleb_spec (1/2) 0); [lra|]. destruct (rleb_spec 8 (1/2)); lra.
Qed.
Lemma clicked_inside : forall g mg p, 0 < mg -> 101/100 * mg < wm g -> 101/100 * mg < hm g -> In p (clicked_positions g (Some mg)) ->
  0 < fst p < wm g /\ 0 < snd p < hm g.
Proof.
  intros g mg p M W H I. cbn in I. apply in_map_iff in I. destruct I as (c & <- & _). cbn [fst snd].
  split; apply clamp_inside; lra.
Qed.

(* ---- loading a saved environment --------------------------------------------------------- *)
Lemma load_shows : forall g o, m2p g <> 0 -> (box_shows g (load_box g o) o <-> px g = 0 /\ py g = 0).
Proof.
  intros g o M. destruct o as [s [x y] v]. unfold load_box, box_shows, box_of, canvas_point, world_to_pixel, psub, padd. cbn [o_pos o_shape fst snd].
  split.
  - intros [E _]. injection E as E1 E2. destruct s as [a b|r]; cbn [half reach fst snd] in *.
    + assert (A : px g / m2p g = 0). { replace (px g / m2p g) with (px g / m2p g + (x * m2p g - a * m2p g * (1 / 2)) / m2p g - (x - a / 2)) by (field; exact M). rewrite E1. ring. }
      assert (B : py g / m2p g = 0).
      { replace (py g / m2p g) with (- (py g / m2p g + (IZR (hpx g) - (- y * m2p g + py g + (py g + IZR (hpx g)) + b * m2p g * (1 / 2))) / m2p g - (y - b / 2))) by (field; exact M). rewrite E2. ring. }
      split; [replace (px g) with (px g / m2p g * m2p g) by (field; exact M); rewrite A; ring|replace (py g) with (py g / m2p g * m2p g) by (field; exact M); rewrite B; ring].
    + assert (A : px g / m2p g = 0). { replace (px g / m2p g) with (px g / m2p g + (x * m2p g - r * m2p g) / m2p g - (x - r)) by (field; exact M). rewrite E1. ring. }
      assert (B : py g / m2p g = 0).
      { replace (py g / m2p g) with (- (py g / m2p g + (IZR (hpx g) - (- y * m2p g + py g + (py g + IZR (hpx g)) + r * m2p g)) / m2p g - (y - r))) by (field; exact M). rewrite E2. ring. }
      split; [replace (px g) with (px g / m2p g * m2p g) by (field; exact M); rewrite A; ring|replace (py g) with (py g / m2p g * m2p g) by (field; exact M); rewrite B; ring].
  - intros [-> ->]. destruct s as [a b|r]; cbn [half reach fst snd]; split; f_equal; field; exact M.
Qed.

(* ---- obstacles of an svg figure ------------------------------------------------------------ *)
Lemma plus_array : forall a b t, plus_transform [a; b] (TArray t) = [a + fst t; b + snd t].
Proof. reflexivity. Qed.

Lemma in_rect_image : forall g u v w h p, 0 < m2p g -> px g = 0 ->  py g = 0 ->
  (in_rect (pixel_to_world g (u, v)) (w / m2p g) (h / m2p g) (canvas_point g p) <-> in_rect (u, v) w h p).
Proof.
  intros g u v w h [a b] M X Y. unfold in_rect, pixel_to_world, canvas_point; cbn [fst snd]. rewrite X, Y.
  set (m := m2p g) in *. clearbody m.
  assert (Mi : 0 < / m) by (apply Rinv_0_lt_compat, M).
  replace (0 / m + a / m - u / m) with ((a - u) * / m) by (field; lra).
  replace (0 / m + (IZR (hpx g) - b) / m - ((0 + IZR (hpx g) - v) / m + 0 / m)) with (- ((b - v) * / m)) by (field; lra).
  rewrite Rabs_Ropp, !Rabs_mult, (Rabs_right (/ m)) by lra.
  replace (w / m / 2) with (w / 2 * / m) by (field; lra). replace (h / m / 2) with (h / 2 * / m) by (field; lra).
  split; intros [K1 K2].
  - split; apply Rmult_le_reg_r with (/ m); assumption.
  - split; apply Rmult_le_compat_r; lra.
Qed.

(* a translated rectangle becomes the obstacle that covers it *)
Lemma svg_rect : forall g t x y w h, 0 < m2p g -> px g = 0 -> py g = 0 ->
  exists s c, add_obstacle g (rect_obstacle (TArray t) x y w h) = Ok (s, c) /\
    forall p, in_shape s c (canvas_point g p) <-> rect_pixels (x + fst t) (y + snd t) w h p.
Proof.
  intros g t x y w h M X Y. exists (Rect (w * 1 / m2p g) (h * 1 / m2p g)), (pixel_to_world g (x + w * (1/2) + fst t, y + h * (1/2) + snd t)).
  split; [reflexivity|]. intro p. cbn [in_shape]. rewrite !Rmult_1_r. rewrite in_rect_image by assumption. unfold in_rect, rect_pixels; cbn [fst snd]. rewrite !Rabs_le_iff. lra.
Qed.

Lemma svg_circle : forall g t cx cy r, 0 < m2p g -> px g = 0 -> py g = 0 -> 0 <= r ->
  exists s c, add_obstacle g (circle_obstacle (TArray t) cx cy r) = Ok (s, c) /\
    forall p, in_shape s c (canvas_point g p) <-> in_disc (cx + fst t, cy + snd t) r p.
Proof.
  intros g t cx cy r M X Y R0. exists (Circ (r * 1 / m2p g)), (pixel_to_world g (cx + fst t, cy + snd t)). split; [reflexivity|]. intros [a b]. cbn [in_shape]. unfold in_disc, pixel_to_world, canvas_point, Rsqr; cbn [fst snd].
  rewrite X, Y. set (m := m2p g) in *. clearbody m. assert (Mi : 0 < / m) by (apply Rinv_0_lt_compat, M).
  replace (0 / m + a / m - (cx + fst t) / m) with ((a - (cx + fst t)) * / m) by (field; lra).
  replace (0 / m + (IZR (hpx g) - b) / m - ((0 + IZR (hpx g) - (cy + snd t)) / m + 0 / m)) with (- ((b - (cy + snd t)) * / m)) by (field; lra).
  set (A := a - (cx + fst t)). set (B := b - (cy + snd t)).
  replace (A * / m * (A * / m) + - (B * / m) * - (B * / m)) with ((A * A + B * B) * (/ m * / m)) by ring.
  replace (r * 1 / m * (r * 1 / m)) with (r * r * (/ m * / m)) by (unfold Rdiv; ring).
  assert (Mm : 0 < / m * / m) by (apply Rmult_lt_0_compat; exact Mi).
  split.
  - intros [_ K]. apply Rmult_le_reg_r with (/ m * / m); assumption.
  - intro K. split; [unfold Rdiv; rewrite Rmult_1_r; apply Rmult_le_pos; lra|]. apply Rmult_le_compat_r; lra.
Qed.

(* a figure without a translation cannot be loaded *)
Lemma svg_none_refuted : forall g x y w h, add_obstacle g (rect_obstacle TNone x y w h) = ValueError /\ add_obstacle g (circle_obstacle TNone x y w) = ValueError.
Proof. intros. split; reflexivity. Qed.

(* diagonal lines are refused, other lines become rectangles *)
Lemma line_defined : forall a b s, (exists o, line_obstacle a b s = Ok o) <-> fst a = fst b \/ snd a = snd b.
Proof.
  intros a b s. unfold line_obstacle. destruct (reqb_spec (fst a) (fst b)) as [X|X]; [split; [intros _; now left|intros _; eexists; reflexivity]|].
  destruct (reqb_spec (snd a) (snd b)) as [Y|Y]; [split; [intros _; now right|intros _; eexists; reflexivity]|].
  split; [intros (o & E); discriminate|intros [?|?]; contradiction].
Qed.

(* the obstacle of a line is the stroke pushed aside by half the stroke width *)
Definition aside (a b : pt) (s : R) : pt :=
  if reqb (fst a) (fst b) then (cmp0 (snd b - snd a) * s / 2, 0) else (0, cmp0 (fst b - fst a) * s / 2).

Lemma line_covers : forall a b s, fst a = fst b \/ snd a = snd b -> a <> b -> 0 <= s ->
  exists w h u v, line_obstacle a b s = Ok {| s_shape := Rect w h; s_pos := [u; v] |} /\
    forall p, in_rect (u, v) w h p <-> stroke_pixels a b s (psub p (aside a b s)).
Proof.
  intros [ax ay] [bx by_] s H N S. unfold line_obstacle, aside. cbn [fst snd] in *.
  destruct (reqb_spec ax bx) as [X|X].
  - eexists _, _, _, _. split; [reflexivity|]. intros [p q]. unfold in_rect, stroke_pixels, psub; cbn [fst snd].
    subst bx. assert (Y : ay <> by_) by congruence. rewrite !Rabs_le_iff.
    assert (E : p - (ax + cmp0 (by_ - ay) * s * (1/2)) = p - cmp0 (by_ - ay) * s / 2 - ax) by field. rewrite E.
    unfold Rmin, Rmax. destruct (Rle_dec ay by_) as [L|L].
    + rewrite (Rabs_right (by_ - ay)) by lra. split; intro K; [left|destruct K as [K|K]]; lra.
    + rewrite (Rabs_left (by_ - ay)) by lra. split; intro K; [left|destruct K as [K|K]]; lra.
  - destruct H as [H|H]; [contradiction|]. rewrite (reqb_eq ay by_ H). subst by_.
    eexists _, _, _, _. split; [reflexivity|]. intros [p q]. unfold in_rect, stroke_pixels, psub; cbn [fst snd]. rewrite !Rabs_le_iff.
    assert (E : q - (ay + cmp0 (bx - ax) * s * (1/2)) = q - cmp0 (bx - ax) * s / 2 - ay) by field. rewrite E.
    unfold Rmin, Rmax. destruct (Rle_dec ax bx) as [L|L].
    + rewrite (Rabs_right (bx - ax)) by lra. split; intro K; [right|destruct K as [K|K]]; lra.
    + rewrite (Rabs_left (bx - ax)) by lra. split; intro K; [right|destruct K as [K|K]]; lra.
Qed.

(* so half of the stroke is not covered *)
Lemma line_refuted : exists a b s p o, stroke_pixels a b s p /\ line_obstacle a b s = Ok o /\
  match s_shape o, s_pos o with Rect w h, [u; v] => ~ in_rect (u, v) w h p | _, _ => False end.
Proof.
  exists (0, 0), (0, 10), 2, (-1/2, 5).
  destruct (line_covers (0, 0) (0, 10) 2) as (w & h & u & v & E & K); [now left|intro Z; injection Z as Z; lra|lra|].
  exists {| s_shape := Rect w h; s_pos := [u; v] |}. split; [|split; [exact E|]].
  - left. cbn. rewrite Rabs_le_iff. unfold Rmin, Rmax. destruct (Rle_dec 0 10); lra.
  - cbn. rewrite K. unfold aside. cbn [fst snd]. rewrite (reqb_eq 0 0 eq_refl). unfold cmp0.
    destruct (rltb_spec (10 - 0) 0); [lra|]. destruct (rltb_spec 0 (10 - 0)); [|lra].
    unfold stroke_pixels, psub; cbn [fst snd]. rewrite !Rabs_le_iff. lra.
Qed.

Lemma polyline_length : forall l s os, polyline_obstacles l s = Ok os -> length os = (length l - 1)%nat.
Proof.
  induction l as [|a l IH]; intros s os E; [injection E as <-; reflexivity|]. destruct l as [|b l]; [injection E as <-; reflexivity|].
  cbn [polyline_obstacles] in E. apply bind_ok in E. destruct E as (o & _ & E). apply bind_ok in E. destruct E as (r & E & F). injection F as <-.
  cbn [length]. rewrite (IH s r E). cbn. lia.
Qed.
Lemma polyline_each : forall l s os i, polyline_obstacles l s = Ok os -> (S i < length l)%nat ->
  line_obstacle (nth i l (0, 0)) (nth (S i) l (0, 0)) s = Ok (nth i os {| s_shape := Circ 0; s_pos := [] |}).
Proof.
  induction l as [|a l IH]; intros s os i E H; [cbn in H; lia|]. destruct l as [|b l]; [cbn in H; lia|].
  cbn [polyline_obstacles] in E. apply bind_ok in E. destruct E as (o & Eo & E). apply bind_ok in E. destruct E as (r & E & F). injection F as <-.
  destruct i as [|i]; [exact Eo|]. cbn [nth]. apply (IH s r i E). cbn in *. lia.
Qed.
