(** Proofs about the graphical interface (Gui_Model.v). *)
From Coq Require Import Reals ZArith List Bool Lra Lia Psatz.
From Verif Require Import Svg_Model Svg_Proofs Svg_Proofs2 Svg_Proofs3 Gui_Model Gui_Spec.
Import ListNotations.
Local Open Scope R_scope.

(* ---- lists ------------------------------------------------------------------ *)
Lemma F2_impl : forall {A B} (P Q : A -> B -> Prop) l m, (forall a b, P a b -> Q a b) -> Forall2 P l m -> Forall2 Q l m.
Proof. intros A B P Q l m H F. induction F; constructor; auto. Qed.
Lemma NoDup_snoc : forall {A} (l : list A) a, NoDup l -> ~ In a l -> NoDup (l ++ [a]).
Proof.
  intros A l a N H. induction N as [|x l X N IH]; cbn; [repeat constructor; intros []|].
  constructor; [|apply IH; intro; apply H; now right]. intro I. apply in_app_or in I. destruct I as [I|[I|[]]]; [contradiction|]. apply H. now left.
Qed.
Lemma F2_removelast : forall {A B} (P : A -> B -> Prop) l m, Forall2 P l m -> Forall2 P (removelast l) (removelast m).
Proof. intros A B P l m F. induction F as [|a b l m H F IH]; [constructor|]. destruct F; [constructor|]. constructor; assumption. Qed.
Lemma map_removelast : forall {A B} (f : A -> B) l, map f (removelast l) = removelast (map f l).
Proof. intros A B f l. induction l as [|a l IH]; [reflexivity|]. destruct l; [reflexivity|]. cbn in *. now rewrite IH. Qed.
Lemma removelast_In : forall {A} (l : list A) a, In a (removelast l) -> In a l.
Proof. intros A l a. induction l as [|x l IH]; [intros []|]. destruct l as [|y l]; [intros []|]. intros [->|H]; [now left|right; apply IH, H]. Qed.
Lemma removelast_NoDup : forall {A} (l : list A), NoDup l -> NoDup (removelast l).
Proof.
  intros A l N. induction N as [|x l X N IH]; [constructor|]. destruct l as [|y l]; [constructor|].
  change (removelast (x :: y :: l)) with (x :: removelast (y :: l)). constructor; [|exact IH]. intro I. apply X. apply removelast_In, I.
Qed.
Lemma remove_first_In : forall {A} (f : A -> bool) l a, In a (remove_first f l) -> In a l.
Proof. intros A f l a. induction l as [|x l IH]; [intros []|]. cbn. destruct (f x); [intro; now right|]. intros [->|H]; [now left|right; apply IH, H]. Qed.

(* ---- pixels and meters ------------------------------------------------------ *)
Lemma there_and_back : forall g p, m2p g <> 0 -> world_to_pixel g (pixel_to_world g p) = p.
Proof. intros g [u v] M. unfold world_to_pixel, pixel_to_world; cbn. f_equal; field; exact M. Qed.
Lemma back_and_there : forall g p, m2p g <> 0 -> pixel_to_world g (world_to_pixel g p) = p.
Proof. intros g [u v] M. unfold world_to_pixel, pixel_to_world; cbn. f_equal; field; exact M. Qed.

(* the position that is stored for an obstacle *)
Lemma pixel_canvas : forall g p, m2p g <> 0 -> pixel_to_world g (fst p + px g, snd p + py g) = canvas_point g p.
Proof. intros g [u v] M. unfold canvas_point, pixel_to_world; cbn. f_equal; field; exact M. Qed.

(* a right click is off by the position of the frame *)
Lemma click_offset : forall g p, m2p g <> 0 ->
  pixel_to_world g p = padd (canvas_point g p) (- px g / m2p g, py g / m2p g).
Proof. intros g [u v] M. unfold canvas_point, pixel_to_world, padd; cbn. f_equal; field; exact M. Qed.

Lemma canvas_shift : forall g p d, m2p g <> 0 -> canvas_point g (padd p d) = padd (canvas_point g p) (fst d / m2p g, - snd d / m2p g).
Proof. intros g [u v] [a b] M. unfold canvas_point, padd; cbn. f_equal; field; exact M. Qed.

(* ---- the grid -------------------------------------------------------------- *)
Lemma round_div_near : forall p c, (0 < c)%Z -> (2 * Z.abs (c * round_div p c - p) <= c)%Z.
Proof.
  intros p c H. unfold round_div. pose proof (Z.div_mod p c ltac:(lia)) as D. pose proof (Z.mod_pos_bound p c H) as B.
  set (q := (p / c)%Z) in *. set (r := (p mod c)%Z) in *. cbv zeta.
  destruct (Z.ltb_spec (2 * r) c); [rewrite D; lia|]. destruct (Z.ltb_spec c (2 * r)).
  - rewrite D. replace (c * (q + 1) - (c * q + r))%Z with (c - r)%Z by ring. lia.
  - destruct (Z.even q); [rewrite D; lia|]. rewrite D. replace (c * (q + 1) - (c * q + r))%Z with (c - r)%Z by ring. lia.
Qed.

Lemma snap_near : forall p c, (0 < c)%Z -> (c | snap p c)%Z /\ (2 * Z.abs (snap p c - p) <= c)%Z.
Proof. intros p c H. split; [exists (round_div p c); unfold snap; ring|]. apply round_div_near, H. Qed.

(* no grid line is nearer *)
Lemma snap_nearest : forall p c k, (0 < c)%Z -> (Z.abs (snap p c - p) <= Z.abs (c * k - p))%Z.
Proof.
  intros p c k H. destruct (snap_near p c H) as [[q E] N]. rewrite E in *. replace (q * c)%Z with (c * q)%Z in * by ring.
  destruct (Z.eq_dec q k) as [->|Q]; [lia|]. 
  assert (c <= Z.abs (c * k - c * q))%Z.
  { replace (c * k - c * q)%Z with (c * (k - q))%Z by ring. rewrite Z.abs_mul, (Z.abs_eq c) by lia. nia. }
  lia.
Qed.

(* both coordinates of a placed point lie on the grid, next to the click *)
Lemma snap_point : forall g p, (0 < cw g)%Z -> (0 < ch g)%Z -> exists i j,
  snap_to_grid g p = (IZR (i * cw g), IZR (j * ch g)) /\
  (2 * Z.abs (i * cw g - fst p) <= cw g)%Z /\ (2 * Z.abs (j * ch g - snd p) <= ch g)%Z.
Proof.
  intros g p H1 H2. destruct (snap_near (fst p) _ H1) as [[i E1] N1]. destruct (snap_near (snd p) _ H2) as [[j E2] N2].
  exists i, j. rewrite <- E1, <- E2. repeat split; assumption.
Qed.

Lemma snap_fix : forall p c, (0 < c)%Z -> snap (snap p c) c = snap p c.
Proof.
  intros p c H. unfold snap at 1. unfold round_div. destruct (snap_near p c H) as [[q E] _]. rewrite E.
  rewrite Z.div_mul, Z.mod_mul by lia. cbv zeta. destruct (Z.ltb_spec (2 * 0) c); [ring|lia].
Qed.

Lemma cell_covers : forall size n, (0 < n)%Z -> (size <= n * cell size n < size + n)%Z.
Proof.
  intros size n H. unfold cell. pose proof (Z.div_mod (- size) n ltac:(lia)) as D. pose proof (Z.mod_pos_bound (- size) n H) as B.
  nia.
Qed.
Lemma cell_pos : forall size n, (0 < n)%Z -> (0 < size)%Z -> (0 < cell size n)%Z.
Proof. intros size n H S. pose proof (cell_covers size n H). nia. Qed.

(* after loading, the grid covers the frame *)
Lemma grid_covers : forall m w h posx posy nx ny, (0 < nx)%Z -> (0 < ny)%Z ->
  let g := gui_init m w h posx posy nx ny in
  (wpx g <= fst (grid_extent g (grid_reinit nx ny)) < wpx g + nx)%Z /\
  (hpx g <= snd (grid_extent g (grid_reinit nx ny)) < hpx g + ny)%Z.
Proof. intros m w h posx posy nx ny X Y. cbn. split; apply cell_covers; assumption. Qed.

(* at the start only if there are as many rows as columns *)
Lemma grid_square : forall m w h posx posy n, (0 < n)%Z ->
  let g := gui_init m w h posx posy n n in
  (wpx g <= fst (grid_extent g (grid_init n n)))%Z /\ (hpx g <= snd (grid_extent g (grid_init n n)))%Z.
Proof. intros m w h posx posy n X. cbn. pose proof (cell_covers (frame_px w m) n X). pose proof (cell_covers (frame_px h m) n X). lia. Qed.

Lemma Int_part_IZR : forall z, Int_part (IZR z) = z.
Proof.
  intro z. unfold Int_part. rewrite <- (tech_up (IZR z) (z + 1)); [lia| |]; rewrite plus_IZR; lra.
Qed.

Lemma grid_refuted : exists m w h posx posy nx ny, (0 < nx)%Z /\ (0 < ny)%Z /\
  let g := gui_init m w h posx posy nx ny in (fst (grid_extent g (grid_init nx ny)) < wpx g)%Z.
Proof.
  exists 50, 8, 8, 0, 0, 20%Z, 10%Z. split; [lia|]. split; [lia|]. cbn. unfold frame_px.
  replace (8 * 50) with (IZR 400) by ring. rewrite Int_part_IZR. reflexivity.
Qed.

(* ---- invariants of the interface ------------------------------------------ *)
Definition good (g : gui) : Prop :=
  pictured g /\ Forall (fun o => (o_var o < next g)%nat) (obstacles g) /\
  match sel g with None => True | Some v => In v (map o_var (obstacles g)) end.

(* the values that no event changes *)
Definition same_frame (g g' : gui) : Prop :=
  m2p g' = m2p g /\ px g' = px g /\ py g' = py g /\ wpx g' = wpx g /\ hpx g' = hpx g /\ wm g' = wm g /\ hm g' = hm g /\ cw g' = cw g /\ ch g' = ch g.

Lemma same_frame_refl : forall g, same_frame g g.
Proof. intro g. repeat split. Qed.
Lemma same_frame_trans : forall a b c, same_frame a b -> same_frame b c -> same_frame a c.
Proof. intros a b c H K. unfold same_frame in *. intuition congruence. Qed.

Lemma step_frame : forall g ev g', gui_step g ev = Ok g' -> same_frame g g'.
Proof.
  intros g ev g' E. destruct ev as [p s|p| |d|p]; cbn in E.
  - injection E as <-. unfold make. destruct (accepted g s); repeat split.
  - injection E as <-. repeat split.
  - injection E as <-. unfold remove. destruct (sel g); [repeat split|]. destruct (obstacles g); repeat split.
  - unfold move in E. apply bind_ok in E. destruct E as (v & _ & E). destruct (existsb _ _); [|discriminate]. injection E as <-. repeat split.
  - injection E as <-. repeat split.
Qed.

Lemma box_shows_frame : forall g g' b o, same_frame g g' -> box_shows g b o -> box_shows g' b o.
Proof.
  intros g g' [[[x1 y1] x2] y2] o (A & B & C & D & E & _) H. unfold box_shows, canvas_point in *. rewrite A, B, C, E. exact H.
Qed.

Lemma drawn_shows : forall g c s, m2p g <> 0 -> forall v,
  box_shows g (box_of c (fst (half (m2p g) s)) (snd (half (m2p g) s))) {| o_shape := s; o_pos := canvas_point g c; o_var := v |}.
Proof.
  intros g [u w] s M v. unfold box_shows, box_of, canvas_point, psub, padd. cbn [fst snd o_pos o_shape].
  destruct s as [a b|r]; cbn [half reach fst snd]; split; f_equal; field; exact M.
Qed.

Lemma make_good : forall g p s, m2p g <> 0 -> good g -> good (make g p s).
Proof.
  intros g p s M ((F & N) & L & S). unfold make. destruct (accepted g s); [|split; [split|]; auto].
  unfold good, pictured; cbn [obstacles items next sel set_obstacles].
  split; [split|split].
  - apply Forall2_app.
    + eapply F2_impl; [|exact F]. intros it o (A & B). split; [exact A|]. eapply box_shows_frame; [|exact B]. repeat split.
    + constructor; [|constructor]. split; [reflexivity|]. cbn [snd]. rewrite pixel_canvas by exact M.
      eapply box_shows_frame; [|apply drawn_shows; exact M]. repeat split.
  - rewrite map_app. cbn [map o_var]. apply NoDup_snoc; [exact N|].
    intro H. apply in_map_iff in H. destruct H as (o & E & H). rewrite Forall_forall in L. specialize (L _ H). lia.
  - apply Forall_app. split; [|constructor; [cbn; lia|constructor]]. eapply Forall_impl; [|exact L]. cbn. intros; lia.
  - destruct (sel g); [|exact I]. rewrite map_app. apply in_or_app. left. exact S.
Qed.

Lemma select_loop_var : forall p l s v, select_loop p l s = Some v -> In v (map o_var l) \/ (l = [] /\ s = Some v).
Proof.
  intros p l. induction l as [|o l IH]; intros s v E; [right; split; [reflexivity|exact E]|]. left. cbn in *.
  destruct (hit p o); [injection E as <-; now left|]. destruct (IH _ _ E) as [I|[_ D]]; [now right|discriminate].
Qed.

Lemma select_good : forall g p, good g -> good (select g p).
Proof.
  intros g p ((F & N) & L & S). unfold good, pictured, select; cbn [obstacles items next sel set_obstacles].
  split; [split|split]; try assumption.
  destruct (select_loop _ _ _) as [v|] eqn:E; [|exact I]. apply select_loop_var in E. destruct E as [E|[E1 E2]]; [exact E|].
    rewrite E2 in S. exact S.
Qed.

Lemma filter_remove : forall (P : nat * box -> obs -> Prop) v its os,
  Forall2 (fun it o => fst it = o_var o /\ P it o) its os -> NoDup (map o_var os) ->
  Forall2 (fun it o => fst it = o_var o /\ P it o)
    (filter (fun it => negb (Nat.eqb (fst it) v)) its) (remove_first (fun o => Nat.eqb v (o_var o)) os).
Proof.
  intros P v its os F. induction F as [|it o its os (E & H) F IH]; intro N; [constructor|]. cbn [filter remove_first map] in *.
  inversion N as [|? ? X N']; subst. rewrite E. destruct (Nat.eqb_spec (o_var o) v) as [V|V]; cbn [negb].
  - rewrite V, Nat.eqb_refl. 
    assert (Q : filter (fun it0 => negb (Nat.eqb (fst it0) v)) its = its); [|rewrite Q; exact F].
    rewrite <- V. clear - F X. induction F as [|it' o' its os (E & _) F IH]; [reflexivity|]. cbn. rewrite E. cbn in X.
    destruct (Nat.eqb_spec (o_var o') (o_var o)) as [Y|Y]; [exfalso; apply X; now left|]. cbn. f_equal. apply IH. intro; apply X; now right.
  - destruct (Nat.eqb_spec v (o_var o)) as [Y|Y]; [congruence|]. constructor; [split; assumption|apply IH, N'].
Qed.

Lemma remove_first_NoDup : forall f os, NoDup (map o_var os) -> NoDup (map o_var (remove_first f os)).
Proof.
  intros f os. induction os as [|o os IH]; intro N; [constructor|]. cbn in *. inversion N as [|? ? X N']; subst.
  destruct (f o); [exact N'|]. cbn. constructor; [|apply IH, N']. intro I. apply X. apply in_map_iff in I. destruct I as (q & E & I).
  apply in_map_iff. exists q. split; [exact E|]. eapply remove_first_In, I.
Qed.

Lemma remove_good : forall g, good g -> good (remove g).
Proof.
  intros g ((F & N) & L & S). unfold remove. destruct (sel g) as [v|] eqn:E.
  - unfold good, pictured; cbn [obstacles items next sel set_obstacles]. split; [split|split; [|exact I]].
    + apply (filter_remove (fun it o => box_shows _ (snd it) o)); [|exact N].
      eapply F2_impl; [|exact F]. intros it o (A & B). split; [exact A|]. eapply box_shows_frame; [|exact B]. repeat split.
    + apply remove_first_NoDup, N.
    + rewrite Forall_forall in *. intros o I. apply L. eapply remove_first_In, I.
  - destruct (obstacles g) as [|o os] eqn:O.
    + split; [split|split]; rewrite ?O, ?E; auto.
    + rewrite <- O in *. unfold good, pictured; cbn [obstacles items next sel set_obstacles]. split; [split|split; [|exact I]].
      * apply F2_removelast. eapply F2_impl; [|exact F]. intros it q (A & B). split; [exact A|]. eapply box_shows_frame; [|exact B]. repeat split.
      * rewrite map_removelast. apply removelast_NoDup, N.
      * rewrite Forall_forall in *. intros q I. apply L. apply removelast_In, I.
Qed.

Lemma update_map : forall (u : obs -> obs) v os, (forall o, o_var (u o) = o_var o) ->
  map o_var (update_first (fun o => Nat.eqb (o_var o) v) u os) = map o_var os.
Proof. intros u v os U. induction os as [|o os IH]; [reflexivity|]. cbn. destruct (Nat.eqb _ _); cbn; [rewrite U; reflexivity|]. now rewrite IH. Qed.

Lemma update_shift : forall (P : nat * box -> obs -> Prop) v u sh its os,
  (forall it o, P it o -> P (fst it, sh (snd it)) (u o)) -> (forall o, o_var (u o) = o_var o) ->
  Forall2 (fun it o => fst it = o_var o /\ P it o) its os -> NoDup (map o_var os) ->
  Forall2 (fun it o => fst it = o_var o /\ P it o)
    (map (fun it => if Nat.eqb (fst it) v then (fst it, sh (snd it)) else it) its)
    (update_first (fun o => Nat.eqb (o_var o) v) u os).
Proof.
  intros P v u sh its os U V F. induction F as [|it o its os (E & H) F IH]; intro N; [constructor|]. cbn [map update_first] in *.
  inversion N as [|? ? X N']; subst. rewrite E. destruct (Nat.eqb_spec (o_var o) v) as [W|W].
  - constructor. { split; [cbn; now rewrite V|]. rewrite <- E. apply U, H. }
    match goal with |- Forall2 _ (map ?f its) os => assert (Q : map f its = its); [|rewrite Q; exact F] end.
    rewrite <- W. clear - F X. induction F as [|it' o' its os (E & _) F IH]; [reflexivity|]. cbn. rewrite E. cbn in X.
    destruct (Nat.eqb_spec (o_var o') (o_var o)) as [Y|Y]; [exfalso; apply X; now left|]. f_equal. apply IH. intro; apply X; now right.
  - constructor; [split; assumption|apply IH, N'].
Qed.

(* a moved obstacle moves by one cell *)
Lemma moved_pos : forall g o d, m2p g <> 0 ->
  pixel_to_world g (padd (world_to_pixel g o) (step_px g d)) = padd o (fst (step_px g d) / m2p g, - snd (step_px g d) / m2p g).
Proof. intros g [x y] d M. unfold pixel_to_world, world_to_pixel, padd; cbn [fst snd]. f_equal; field; exact M. Qed.

Lemma move_good : forall g d g', m2p g <> 0 -> good g -> move g d = Ok g' -> good g'.
Proof.
  intros g d g' M ((F & N) & L & S) E. unfold move in E. apply bind_ok in E. destruct E as (v & _ & E).
  destruct (existsb _ _); [|discriminate]. injection E as <-.
  unfold good, pictured; cbn [obstacles items next sel set_obstacles]. split; [split|split].
  - apply (update_shift (fun it o => box_shows _ (snd it) o) v _ (fun b => shift_box b (step_px g d))).
    + intros it o H. cbn [snd]. eapply box_shows_frame; [apply same_frame_refl|]. rewrite moved_pos by exact M.
      destruct it as [n [[[x1 y1] x2] y2]]. cbn [snd] in *. unfold box_shows, shift_box in *. cbn [o_pos o_shape] in *. destruct H as [H1 H2].
      set (d' := step_px g d) in *. clearbody d'. destruct d' as [dx dy]. cbn [fst snd].
      change (canvas_point (set_obstacles _ _ _ _ _)) with (canvas_point g) in *.
      change (x1 + dx, y2 + dy) with (padd (x1, y2) (dx, dy)). change (x2 + dx, y1 + dy) with (padd (x2, y1) (dx, dy)).
      rewrite !canvas_shift by exact M. rewrite H1, H2. unfold padd, psub; cbn [fst snd]. split; f_equal; ring.
    + reflexivity.
    + eapply F2_impl; [|exact F]. intros it o (A & B). split; [exact A|]. eapply box_shows_frame; [|exact B]. repeat split.
    + exact N.
  - rewrite update_map by reflexivity. exact N.
  - clear - L. induction L as [|o os H L IH]; [constructor|]. cbn. destruct (Nat.eqb _ _); constructor; assumption.
  - destruct (sel g) as [w|]; [|exact I]. rewrite update_map by reflexivity. exact S.
Qed.

Lemma click_good : forall g p, good g -> good (click g p).
Proof.
  intros g p ((F & N) & L & S). split; [split|split]; cbn [obstacles items next sel click]; try assumption.
Qed.

Lemma step_good : forall g ev g', m2p g <> 0 -> good g -> gui_step g ev = Ok g' -> good g'.
Proof.
  intros g ev g' M G E. destruct ev as [p s|p| |d|p]; cbn in E.
  - injection E as <-. apply make_good; assumption.
  - injection E as <-. apply select_good, G.
  - injection E as <-. apply remove_good, G.
  - eapply move_good; eassumption.
  - injection E as <-. apply click_good, G.
Qed.

Lemma run_good : forall l g g', m2p g <> 0 -> good g -> gui_run g l = Ok g' -> good g' /\ same_frame g g'.
Proof.
  induction l as [|ev l IH]; intros g g' M G E.
  { injection E as <-. split; [exact G|apply same_frame_refl]. }
  cbn in E. apply bind_ok in E. destruct E as (g1 & E1 & E). pose proof (step_frame _ _ _ E1) as Fr.
  destruct (IH g1 g') as [G' Fr']; [destruct Fr as [-> _]; exact M|eapply step_good; eassumption|exact E|].
  split; [exact G'|eapply same_frame_trans; eassumption].
Qed.

Lemma init_good : forall m w h posx posy nx ny, good (gui_init m w h posx posy nx ny).
Proof. intros. split; [split|split]; cbn; constructor. Qed.

(* whatever the user does, the canvas shows the obstacles *)
Lemma picture_kept : forall m w h posx posy nx ny l g, m <> 0 ->
  gui_run (gui_init m w h posx posy nx ny) l = Ok g -> pictured g.
Proof. intros m w h posx posy nx ny l g M E. destruct (run_good l (gui_init m w h posx posy nx ny) g M (init_good _ _ _ _ _ _ _) E) as [[P _] _]. exact P. Qed.

(* the only thing that fails is moving an obstacle when there is none *)
Lemma step_defined : forall g ev, good g -> (forall g', gui_step g ev <> Ok g') -> gui_step g ev = IndexError /\ obstacles g = [] /\ exists d, ev = Move d.
Proof.
  intros g ev ((F & N) & L & S) H. destruct ev as [p s|p| |d|p]; try (exfalso; apply (H _ eq_refl)).
  cbn in *. unfold move in *. destruct (sel g) as [v|].
  - exfalso. cbn [bind] in H. apply in_map_iff in S. destruct S as (o & E & I).
    assert (Ex : existsb (fun o => Nat.eqb (o_var o) v) (obstacles g) = true).
    { apply existsb_exists. exists o. split; [exact I|]. rewrite E. apply Nat.eqb_refl. }
    rewrite Ex in H. exact (H _ eq_refl).
  - destruct (rev (obstacles g)) as [|o r] eqn:R.
    + assert (obstacles g = []) as -> by (rewrite <- (rev_involutive (obstacles g)), R; reflexivity).
      split; [reflexivity|]. split; [reflexivity|]. exists d; reflexivity.
    + exfalso. cbn [bind] in H.
      assert (Ex : existsb (fun o' => Nat.eqb (o_var o') (o_var o)) (obstacles g) = true).
      { apply existsb_exists. exists o. split; [|apply Nat.eqb_refl]. apply in_rev. rewrite R. now left. }
      rewrite Ex in H. exact (H _ eq_refl).
Qed.

Lemma gui_fails : forall m w h posx posy nx ny l ev g, m <> 0 ->
  gui_run (gui_init m w h posx posy nx ny) l = Ok g -> (forall g', gui_step g ev <> Ok g') ->
  gui_step g ev = IndexError /\ obstacles g = [] /\ exists d, ev = Move d.
Proof.
  intros m w h posx posy nx ny l ev g M E H. destruct (run_good l (gui_init m w h posx posy nx ny) g M (init_good _ _ _ _ _ _ _) E) as [G _]. apply step_defined; assumption.
Qed.
