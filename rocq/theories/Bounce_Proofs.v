(** Bouncing obstacles keep their speed and turn back into the room. *)
From Coq Require Import Reals List Bool Arith Lia Lra.
From Verif Require Import Geom_Model Geom_Spec Obst_Model Obst_Spec Obst_Proofs2 Bounce_Model.
Import ListNotations.
Local Open Scope R_scope.

Definition same_speed (v w : R * R) : Prop :=
  Rabs (fst w) = Rabs (fst v) /\ Rabs (snd w) = Rabs (snd v).

Lemma gltb_true : forall x y, Rltb x y = true <-> x < y.
Proof. intros. unfold Rltb. destruct (Rlt_dec x y); split; intros; try assumption; try reflexivity; try discriminate; contradiction. Qed.
Lemma gltb_false : forall x y, Rltb x y = false <-> y <= x.
Proof. intros. unfold Rltb. destruct (Rlt_dec x y); split; intros; try discriminate; try reflexivity; lra. Qed.
Lemma eq0_true : forall x, Reqb0 x = true <-> x = 0.
Proof. intros. unfold Reqb0. destruct (Req_EM_T x 0); split; intros; try assumption; try reflexivity; try discriminate; contradiction. Qed.
Lemma eq0_false : forall x, Reqb0 x = false <-> x <> 0.
Proof. intros. unfold Reqb0. destruct (Req_EM_T x 0); split; intros; try assumption; try reflexivity; try discriminate; contradiction. Qed.

Lemma same_refl : forall v, same_speed v v.
Proof. split; reflexivity. Qed.
Lemma same_trans : forall u v w, same_speed u v -> same_speed v w -> same_speed u w.
Proof. intros u v w [A B] [C D]. split; congruence. Qed.

Lemma reflect_speed : forall hit pos vel v, reflect hit pos vel = Some v -> same_speed vel v.
Proof.
  intros hit pos [vx vy] v H. unfold reflect in H.
  destruct (hit pos) as [[|]|]; try discriminate; [|inversion H; apply same_refl].
  destruct (Reqb0 vx || Reqb0 vy).
  { inversion H; subst. split; cbn [fst snd]; apply Rabs_Ropp. }
  cbn zeta in H.
  destruct (Rltb 0 vx && Rltb 0 vy); [|destruct (Rltb vx 0 && Rltb 0 vy); [|destruct (Rltb 0 vx && Rltb vy 0)]];
  (match type of H with context[hit ?q] => destruct (hit q) as [[|]|] end; try discriminate;
   inversion H; subst; split; cbn [fst snd]; rewrite ?Rabs_Ropp; reflexivity).
Qed.

Lemma reflect_free : forall hit pos vel, hit pos = Some false -> reflect hit pos vel = Some vel.
Proof. intros hit pos vel H. unfold reflect. now rewrite H. Qed.

Lemma others_speed : forall s pos others vel v, bounce_others s pos others vel = Some v -> same_speed vel v.
Proof.
  induction others as [|o others IH]; intros vel v H; cbn [bounce_others] in H.
  - inversion H; apply same_refl.
  - destruct (reflect _ pos vel) as [w|] eqn:E; [|discriminate].
    eapply same_trans; [eapply reflect_speed; exact E|now apply IH].
Qed.

Lemma others_free : forall s pos others vel,
  (forall o, In o others -> overlaps_with s pos (bshape o) (bpos o) = Some false) ->
  bounce_others s pos others vel = Some vel.
Proof.
  induction others as [|o others IH]; intros vel H; cbn [bounce_others]; [reflexivity|].
  rewrite reflect_free by (apply H; now left). apply IH. intros; apply H; now right.
Qed.

Lemma bounce_speed : forall room rpos others o o', bounce_one room rpos others o = Some o' ->
  same_speed (bvel o) (bvel o') /\ bpos o' = bpos o /\ bshape o' = bshape o /\
  oa (bxst o') = oa (bxst o) /\ oa (byst o') = oa (byst o) /\ btime o' = btime o /\
  bxev o' = bxev o /\ byev o' = byev o /\ bbounce o' = bbounce o.
Proof.
  intros room rpos others o o' H. unfold bounce_one in H. destruct (bbounce o) eqn:B.
  - destruct (bounce_others _ _ _ _) as [v|] eqn:E1; [|discriminate].
    destruct (reflect _ _ v) as [v'|] eqn:E2; [|discriminate]. inversion H; subst o'.
    split; [|repeat split; try reflexivity; exact B].
    apply others_speed in E1. apply reflect_speed in E2.
    assert (X : bvel (with_vel o v') = v') by (destruct v'; reflexivity). rewrite X.
    eapply same_trans; eassumption.
  - inversion H; subst. split; [apply same_refl|]. repeat split; try reflexivity. exact B.
Qed.

Lemma bounce_untouched : forall room rpos others o,
  (forall q, In q others -> overlaps_with (bshape o) (bpos o) (bshape q) (bpos q) = Some false) ->
  is_outside_of (bshape o) (bpos o) room rpos = false ->
  bounce_one room rpos others o = Some o.
Proof.
  intros room rpos others o Ho Hr. unfold bounce_one. destruct (bbounce o); [|reflexivity].
  rewrite others_free by assumption. rewrite reflect_free by (now rewrite Hr).
  unfold with_vel, bvel. destruct o as [s [x v a] [y w b] ? ? ? ?]; reflexivity.
Qed.

(* ---------- whole environment ---------- *)

Lemma env_go_length : forall room rpos d todo before r,
  env_go room rpos d before todo = Some r -> length r = (length before + length todo)%nat.
Proof.
  induction todo as [|o todo IH]; intros before r H; cbn [env_go] in H.
  - inversion H; subst. simpl. lia.
  - destruct (bounce_one _ _ _ o) as [o'|]; [|discriminate]. apply IH in H. rewrite app_length in H. simpl in H |- *. lia.
Qed.

Definition steady (o : obst) : Prop :=
  bxev o = [] /\ byev o = [] /\ oa (bxst o) = 0 /\ oa (byst o) = 0.

(* with no jump scheduled during the step and no acceleration the velocity
   recorded after the step is the reflected one *)
Lemma motion_nil : forall t0 s t, motion [] t0 s t
  = mkO (newton (ox s) (ov s) (oa s) (t - t0)) (ov s + oa s * (t - t0)) (oa s).
Proof. intros. unfold motion; cbn [map sumR fold_right]. now rewrite !Rplus_0_r. Qed.

Lemma advance_steady : forall d o, 0 <= d -> steady o ->
  bvel (advance d o) = bvel o /\
  bpos (advance d o) = (fst (bpos o) + fst (bvel o) * d, snd (bpos o) + snd (bvel o) * d) /\
  steady (advance d o).
Proof.
  intros d [s [x v a] [y w b] ex ey t bb] Hd (H1 & H2 & H3 & H4). cbn [bxev byev bxst byst oa] in *. subst.
  unfold advance, bvel, bpos, steady; cbn [bxev byev bxst byst btime bshape bbounce].
  rewrite !sample_motion by (try lra; intros e []). rewrite !motion_nil; cbn [ox ov oa fst snd].
  unfold newton. repeat split; try (f_equal; field).
Qed.

Lemma env_go_speed : forall room rpos d todo before r, 0 <= d ->
  env_go room rpos d before todo = Some r -> (forall o, In o todo -> steady o) ->
  firstn (length before) r = before /\
  forall i o, nth_error todo i = Some o -> exists o', nth_error r (length before + i) = Some o' /\
    same_speed (bvel o) (bvel o') /\ steady o' /\
    bpos o' = (fst (bpos o) + fst (bvel o') * d, snd (bpos o) + snd (bvel o') * d).
Proof.
  intros room rpos d todo. induction todo as [|o todo IH]; intros before r Hd H Hs; cbn [env_go] in H.
  - inversion H; subst. split; [apply firstn_all|]. intros i o Hi. destruct i; discriminate.
  - destruct (bounce_one room rpos (before ++ todo) o) as [o'|] eqn:E; [|discriminate].
    destruct (bounce_speed _ _ _ _ _ E) as (B1 & B2 & B3 & B4 & B5 & B6 & B7 & B8 & B9).
    assert (So : steady o') by (destruct (Hs o (or_introl eq_refl)) as (S1 & S2 & S3 & S4); repeat split; congruence).
    destruct (advance_steady d o' Hd So) as (A1 & A2 & A3).
    destruct (IH _ _ Hd H (fun q Hq => Hs q (or_intror Hq))) as [F G].
    rewrite app_length in F; cbn [length] in F.
    assert (FF : firstn (length before) r = before).
    { rewrite <- (firstn_firstn r (length before) (length before + 1)) || idtac.
      replace (length before) with (Nat.min (length before) (length before + 1)) at 1 by lia.
      rewrite <- firstn_firstn, F, firstn_app, Nat.sub_diag, firstn_all. cbn. apply app_nil_r. }
    split; [exact FF|]. intros i q Hi. destruct i as [|i].
    + cbn in Hi. inversion Hi; subst q. exists (advance d o').
      split.
      { rewrite Nat.add_0_r. rewrite <- (firstn_skipn (length before + 1) r), F.
        rewrite <- app_assoc, nth_error_app2 by lia. rewrite Nat.sub_diag. reflexivity. }
      rewrite A1, A2. split; [exact B1|]. split; [exact A3|]. rewrite B2. reflexivity.
    + cbn in Hi. destruct (G i q Hi) as (q' & Q1 & Q2). exists q'. split; [|exact Q2].
      rewrite app_length in Q1; cbn [length] in Q1. replace (length before + S i)%nat with (length before + 1 + i)%nat by lia. exact Q1.
Qed.

Lemma env_speed : forall room rpos d obs r, 0 <= d -> env_simulate room rpos d obs = Some r ->
  (forall o, In o obs -> steady o) ->
  length r = length obs /\
  forall i o, nth_error obs i = Some o -> exists o', nth_error r i = Some o' /\
    same_speed (bvel o) (bvel o') /\ steady o' /\
    bpos o' = (fst (bpos o) + fst (bvel o') * d, snd (bpos o) + snd (bvel o') * d).
Proof.
  intros room rpos d obs r Hd H Hs. split.
  - apply (env_go_length _ _ _ _ _ _ H).
  - intros i o Hi. destruct (env_go_speed _ _ _ _ _ _ Hd H Hs) as [_ G]. exact (G i o Hi).
Qed.

(* ---------- the room ---------- *)

(** positions of the obstacle for which it is inside the room form a box *)
Definition room_box (s : oshape2) (room : (R * R) * (R * R)) (rpos : R * R) (lx ux ly uy : R) : Prop :=
  forall p, is_outside_of s p room rpos = false <-> (lx <= fst p <= ux /\ ly <= snd p <= uy).

Lemma in_iff : forall a x b, in_interval a x b = true <-> a <= x <= b.
Proof.
  intros. unfold in_interval. rewrite andb_true_iff. unfold Rleb.
  destruct (Rle_dec a x); destruct (Rle_dec x b); split; intros H; try (destruct H; discriminate); try tauto; try lra; auto.
Qed.

Lemma circle_box : forall r xmin xmax ymin ymax rpos, 0 <= r ->
  room_box (SCircle r) ((xmin, xmax), (ymin, ymax)) rpos
    (xmin + fst rpos + r) (xmax + fst rpos - r) (ymin + snd rpos + r) (ymax + snd rpos - r).
Proof.
  intros r xmin xmax ymin ymax [u v] Hr [px py]. unfold is_outside_of; cbn [fst snd].
  rewrite !orb_false_iff, !negb_false_iff, !in_iff. lra.
Qed.

Lemma polygon_box : forall s room rpos, (forall r, s <> SCircle r) -> verts s <> [] ->
  exists lx ux ly uy, room_box s room rpos lx ux ly uy.
Proof.
  intros s [[xmin xmax] [ymin ymax]] [u v] Hs Hv.
  assert (HE : forall p, is_outside_of s p ((xmin, xmax), (ymin, ymax)) (u, v) = false <->
    forall w, In w (verts s) -> (xmin + u <= fst w + fst p <= xmax + u /\ ymin + v <= snd w + snd p <= ymax + v)).
  { intros p. destruct s as [r|q|vs]; [elim (Hs r eq_refl)| |];
    (cbn [is_outside_of]; rewrite <- not_true_iff_false, existsb_exists; split;
     [intros H w Hw; rewrite <- !in_iff;
      destruct (in_interval (xmin + u) (fst w + fst p) (xmax + u)) eqn:E1;
      destruct (in_interval (ymin + v) (snd w + snd p) (ymax + v)) eqn:E2; auto;
      exfalso; apply H; exists w; (split; [exact Hw|]); cbn [fst snd]; rewrite E1, E2; reflexivity
     |intros H (w & Hw & Hb); specialize (H w Hw); rewrite <- !in_iff in H; destruct H as [H1 H2];
      cbn [fst snd] in Hb; rewrite H1, H2 in Hb; discriminate]). }
  assert (HB : forall l : list (R * R), l <> [] -> exists lx ux ly uy, forall p : R * R,
    (forall w, In w l -> (xmin + u <= fst w + fst p <= xmax + u /\ ymin + v <= snd w + snd p <= ymax + v)) <->
    (lx <= fst p <= ux /\ ly <= snd p <= uy)).
  { induction l as [|w l IH]; intros Hl; [congruence|]. destruct l as [|w' l].
    - exists (xmin + u - fst w), (xmax + u - fst w), (ymin + v - snd w), (ymax + v - snd w). intros p. split.
      + intros H. specialize (H w (or_introl eq_refl)). lra.
      + intros H z [<-|[]]. lra.
    - destruct IH as (lx & ux & ly & uy & IH); [discriminate|].
      exists (Rmax lx (xmin + u - fst w)), (Rmin ux (xmax + u - fst w)), (Rmax ly (ymin + v - snd w)), (Rmin uy (ymax + v - snd w)).
      intros p. specialize (IH p).
      assert (EM : forall a b x, Rmax a b <= x <-> a <= x /\ b <= x) by (intros; unfold Rmax; destruct (Rle_dec a b); lra).
      assert (Em : forall a b x, x <= Rmin a b <-> x <= a /\ x <= b) by (intros; unfold Rmin; destruct (Rle_dec a b); lra).
      rewrite !EM, !Em. split.
      + intros H. assert (H1 := H w (or_introl eq_refl)). assert (H2 := proj1 IH (fun z Hz => H z (or_intror Hz))). lra.
      + intros H z [<-|Hz]; [lra|]. apply IH; [lra|exact Hz]. }
  destruct (HB (verts s) Hv) as (lx & ux & ly & uy & G). exists lx, ux, ly, uy. intros p. rewrite HE. apply G.
Qed.

Section Box.
Variables (s : oshape2) (room : (R * R) * (R * R)) (rpos : R * R) (lx ux ly uy : R).
Hypothesis HB : room_box s room rpos lx ux ly uy.
Let hit p := Some (is_outside_of s p room rpos).

Lemma box_in : forall p, lx <= fst p <= ux -> ly <= snd p <= uy -> is_outside_of s p room rpos = false.
Proof. intros. apply HB. tauto. Qed.
Lemma box_out : forall p, ~ (lx <= fst p <= ux /\ ly <= snd p <= uy) -> is_outside_of s p room rpos = true.
Proof. intros p H. apply not_false_iff_true. intro E. apply HB in E. contradiction. Qed.

Ltac sides vx vy :=
  destruct (Rltb 0 vx) eqn:?; destruct (Rltb 0 vy) eqn:?; destruct (Rltb vx 0) eqn:?; destruct (Rltb vy 0) eqn:?;
  repeat match goal with
  | H : Rltb _ _ = true |- _ => apply gltb_true in H
  | H : Rltb _ _ = false |- _ => apply gltb_false in H end; try lra; cbn [andb].

(* straight motion: turned back *)
Lemma room_straight : forall p vx vy, is_outside_of s p room rpos = true -> vx = 0 \/ vy = 0 ->
  reflect hit p (vx, vy) = Some (- vx, - vy).
Proof.
  intros p vx vy Ho Hz. unfold reflect, hit. rewrite Ho.
  replace (Reqb0 vx || Reqb0 vy) with true; [reflexivity|]. symmetry. apply orb_true_iff.
  destruct Hz; [left|right]; now apply eq0_true.
Qed.

Ltac start Hx Hy := unfold reflect, hit; rewrite box_out by (cbn [fst snd]; lra);
  replace (Reqb0 _ || Reqb0 _) with false by (symmetry; apply orb_false_iff; split; apply eq0_false; assumption);
  cbn zeta; cbn [fst snd].

(* right wall *)
Lemma room_right : forall px py vx vy, ux < px <= ux + 0.15 -> lx + 0.15 <= ux ->
  ly + 0.15 <= py <= uy -> 0 < vx -> vy <> 0 ->
  reflect hit (px, py) (vx, vy) = Some (- vx, vy).
Proof.
  intros px py vx vy Hp Hw Hy Hv Hvy. assert (Hvx : vx <> 0) by lra. start Hvx Hvy.
  sides vx vy.
  - rewrite box_out by (cbn [fst snd]; lra). reflexivity.
  - rewrite box_in by (cbn [fst snd]; lra). reflexivity.
Qed.
(* left wall *)
Lemma room_left : forall px py vx vy, lx - 0.15 <= px < lx -> lx + 0.15 <= ux ->
  ly + 0.15 <= py <= uy -> vx < 0 -> vy <> 0 ->
  reflect hit (px, py) (vx, vy) = Some (- vx, vy).
Proof.
  intros px py vx vy Hp Hw Hy Hv Hvy. assert (Hvx : vx <> 0) by lra. start Hvx Hvy.
  sides vx vy.
  - rewrite box_out by (cbn [fst snd]; lra). reflexivity.
  - rewrite box_in by (cbn [fst snd]; lra). reflexivity.
Qed.
(* upper wall *)
Lemma room_top : forall px py vx vy, uy < py <= uy + 0.15 -> ly + 0.15 <= uy ->
  lx + 0.15 <= px <= ux - 0.15 -> 0 < vy -> vx <> 0 ->
  reflect hit (px, py) (vx, vy) = Some (vx, - vy).
Proof.
  intros px py vx vy Hp Hw Hy Hvy Hvx. assert (Hvy0 : vy <> 0) by lra. start Hvx Hvy0.
  sides vx vy; (rewrite box_in by (cbn [fst snd]; lra)); reflexivity.
Qed.
(* lower wall: no margin needed *)
Lemma room_bottom : forall px py vx vy, py < ly -> vy < 0 -> vx <> 0 ->
  reflect hit (px, py) (vx, vy) = Some (vx, - vy).
Proof.
  intros px py vx vy Hp Hvy Hvx. assert (Hvy0 : vy <> 0) by lra. start Hvx Hvy0.
  sides vx vy; (rewrite box_out by (cbn [fst snd]; lra)); reflexivity.
Qed.
End Box.

Definition unit_room : (R * R) * (R * R) := ((-1, 1), (-1, 1)).
Lemma unit_box : room_box (SCircle 0) unit_room (0, 0) (-1) 1 (-1) 1.
Proof.
  pose proof (circle_box 0 (-1) 1 (-1) 1 (0, 0) (Rle_refl 0)) as H. cbn [fst snd] in H.
  unfold room_box in *. intros p. rewrite (H p). cbn [fst snd]. lra.
Qed.

(* already on the way back in: turned outwards again *)
Lemma inward_refuted : exists s room rpos pos vel v,
  is_outside_of s pos room rpos = true /\ 1 < fst pos /\ fst vel < 0 /\
  room_box s room rpos (-1) 1 (-1) 1 /\
  reflect (fun p => Some (is_outside_of s p room rpos)) pos vel = Some v /\ 0 < fst v.
Proof.
  exists (SCircle 0), unit_room, (0, 0), (1.1, 0), (-1, 0), (1, 0).
  assert (O : is_outside_of (SCircle 0) (1.1, 0) unit_room (0, 0) = true).
  { apply (box_out _ _ _ _ _ _ _ unit_box). cbn [fst snd]. lra. }
  split; [exact O|]. split; [cbn; lra|]. split; [cbn; lra|]. split; [apply unit_box|].
  rewrite room_straight; [|exact O|now right]. split; [f_equal; f_equal; lra|cbn; lra].
Qed.

(* both walls crossed at a corner: the velocity still leads out of one *)
Lemma corner_refuted : exists s room rpos pos vel v,
  room_box s room rpos (-1) 1 (-1) 1 /\ 1 < fst pos /\ 1 < snd pos /\ 0 < fst vel /\ 0 < snd vel /\
  reflect (fun p => Some (is_outside_of s p room rpos)) pos vel = Some v /\ 0 < snd v.
Proof.
  exists (SCircle 0), unit_room, (0, 0), (1.1, 1.1), (1, 1), (-1, 1).
  split; [apply unit_box|]. do 4 (split; [cbn; lra|]). split; [|cbn; lra].
  unfold reflect. rewrite (box_out _ _ _ _ _ _ _ unit_box) by (cbn [fst snd]; lra).
  replace (Reqb0 1 || Reqb0 1) with false by (symmetry; apply orb_false_iff; split; apply eq0_false; lra).
  replace (Rltb 0 1) with true by (symmetry; apply gltb_true; lra). cbn [andb fst snd].
  rewrite (box_out _ _ _ _ _ _ _ unit_box) by (cbn [fst snd]; lra). f_equal; f_equal; lra.
Qed.

(* more than 0.15 outside the right wall: the wrong component is reversed *)
Lemma deep_refuted : exists s room rpos pos vel v,
  room_box s room rpos (-1) 1 (-1) 1 /\ 1 < fst pos /\ snd pos = 0 /\ 0 < fst vel /\
  reflect (fun p => Some (is_outside_of s p room rpos)) pos vel = Some v /\ 0 < fst v.
Proof.
  exists (SCircle 0), unit_room, (0, 0), (1.2, 0), (1, -1), (1, 1).
  split; [apply unit_box|]. split; [cbn; lra|]. split; [reflexivity|]. split; [cbn; lra|]. split; [|cbn; lra].
  unfold reflect. rewrite (box_out _ _ _ _ _ _ _ unit_box) by (cbn [fst snd]; lra).
  replace (Reqb0 1 || Reqb0 (-1)) with false by (symmetry; apply orb_false_iff; split; apply eq0_false; lra).
  replace (Rltb 0 1) with true by (symmetry; apply gltb_true; lra).
  replace (Rltb 0 (-1)) with false by (symmetry; apply gltb_false; lra).
  replace (Rltb 1 0) with false by (symmetry; apply gltb_false; lra).
  replace (Rltb (-1) 0) with true by (symmetry; apply gltb_true; lra). cbn [andb fst snd].
  rewrite (box_out _ _ _ _ _ _ _ unit_box) by (cbn [fst snd]; lra). f_equal; f_equal; lra.
Qed.

(* a single bouncing obstacle in uniform motion that crossed the right wall
   during the last step is back where that step began, in that direction,
   after the next step *)
Lemma returns_right : forall room rpos d o px py lx ux ly uy, 0 <= d -> steady o -> bbounce o = true ->
  room_box (bshape o) room rpos lx ux ly uy ->
  let vx := fst (bvel o) in let vy := snd (bvel o) in
  bpos o = (px + vx * d, py) -> px <= ux < px + vx * d -> px + vx * d <= ux + 0.15 -> lx + 0.15 <= ux ->
  ly + 0.15 <= py <= uy -> 0 < vx -> vy <> 0 ->
  exists o', env_simulate room rpos d [o] = Some [o'] /\ bpos o' = (px, py + vy * d) /\
    bvel o' = (- vx, vy).
Proof.
  intros room rpos d o px py lx ux ly uy Hd Hs Hb HB vx vy Hp H1 H2 Hw Hy Hv Hvy.
  assert (E : bounce_one room rpos [] o = Some (with_vel o (- vx, vy))).
  { unfold bounce_one. rewrite Hb. cbn [bounce_others].
    replace (bvel o) with (vx, vy) by (unfold vx, vy; destruct (bvel o); reflexivity).
    rewrite Hp, (room_right _ _ _ _ _ _ _ HB); [reflexivity| | | | |]; lra || assumption. }
  exists (advance d (with_vel o (- vx, vy))). unfold env_simulate. cbn [env_go app]. rewrite E.
  split; [reflexivity|].
  assert (Hs' : steady (with_vel o (- vx, vy))) by (destruct Hs as (? & ? & ? & ?); repeat split; assumption).
  destruct (advance_steady d _ Hd Hs') as (A1 & A2 & _). rewrite A1, A2.
  assert (Ev : bvel (with_vel o (- vx, vy)) = (- vx, vy)) by reflexivity.
  assert (Ep : bpos (with_vel o (- vx, vy)) = (px + vx * d, py)) by (rewrite <- Hp; reflexivity).
  rewrite Ev, Ep; cbn [fst snd]. split; [f_equal; ring|reflexivity].
Qed.

(* the step never raises when all pairs of shapes can be tested *)
Definition testable (a b : oshape2) : Prop := forall p q, overlaps_with a p b q <> None.

Lemma reflect_total : forall hit pos vel, (forall p, hit p <> None) -> reflect hit pos vel <> None.
Proof.
  intros hit pos [vx vy] H. unfold reflect. pose proof (H pos) as H0. destruct (hit pos) as [[|]|]; try congruence.
  destruct (Reqb0 vx || Reqb0 vy); [discriminate|]. cbn zeta.
  assert (G : forall p (f o : R * R), match hit p with None => None | Some false => Some f | Some true => Some o end <> None).
  { intros p f o. pose proof (H p). destruct (hit p) as [[|]|]; congruence. }
  destruct (Rltb 0 vx && Rltb 0 vy); [apply G|]. destruct (Rltb vx 0 && Rltb 0 vy); [apply G|].
  destruct (Rltb 0 vx && Rltb vy 0); apply G.
Qed.

Lemma others_total : forall s pos others vel, (forall o, In o others -> testable s (bshape o)) ->
  bounce_others s pos others vel <> None.
Proof.
  induction others as [|o others IH]; intros vel H; cbn [bounce_others]; [discriminate|].
  destruct (reflect _ pos vel) as [v|] eqn:E.
  - apply IH. intros; apply H; now right.
  - exfalso. revert E. apply reflect_total. intros p. apply H. now left.
Qed.

Lemma bounce_total : forall room rpos others o, (forall q, In q others -> testable (bshape o) (bshape q)) ->
  bounce_one room rpos others o <> None.
Proof.
  intros room rpos others o H. unfold bounce_one. destruct (bbounce o); [|discriminate].
  destruct (bounce_others _ _ _ _) as [v|] eqn:E; [|exfalso; revert E; now apply others_total].
  destruct (reflect _ _ v) as [v'|] eqn:E2; [discriminate|]. exfalso. revert E2. apply reflect_total. discriminate.
Qed.

Lemma env_go_total : forall room rpos d todo before,
  (forall a b, In a (before ++ todo) -> In b (before ++ todo) -> testable (bshape a) (bshape b)) ->
  env_go room rpos d before todo <> None.
Proof.
  induction todo as [|o todo IH]; intros before H; cbn [env_go]; [discriminate|].
  destruct (bounce_one room rpos (before ++ todo) o) as [o'|] eqn:E.
  - apply IH. destruct (bounce_speed _ _ _ _ _ E) as (_ & _ & B & _).
    assert (G : forall a, In a ((before ++ [advance d o']) ++ todo) -> exists a', In a' (before ++ o :: todo) /\ bshape a' = bshape a).
    { intros a Ha. rewrite <- app_assoc, in_app_iff in Ha. destruct Ha as [Ha|[<-|Ha]].
      - exists a. split; [apply in_or_app; now left|reflexivity].
      - exists o. split; [apply in_or_app; right; now left|]. cbn. congruence.
      - exists a. split; [apply in_or_app; right; now right|reflexivity]. }
    intros a b Ha Hb. destruct (G a Ha) as (a' & Ha' & <-). destruct (G b Hb) as (b' & Hb' & <-). now apply H.
  - exfalso. revert E. apply bounce_total. intros q Hq. apply H.
    + apply in_or_app. right. now left.
    + apply in_app_or in Hq. apply in_or_app. destruct Hq; [now left|right; now right].
Qed.

Lemma env_total : forall room rpos d obs,
  (forall a b, In a obs -> In b obs -> testable (bshape a) (bshape b)) ->
  exists r, env_simulate room rpos d obs = Some r.
Proof.
  intros room rpos d obs H. destruct (env_simulate room rpos d obs) as [r|] eqn:E; [now exists r|].
  exfalso. revert E. now apply env_go_total.
Qed.

Lemma circles_testable : forall r r', testable (SCircle r) (SCircle r').
Proof. intros r r' p q. discriminate. Qed.

(* two obstacles that are polygons but not both rectangles cannot be tested *)
Lemma polygons_refuted : exists room rpos d obs, env_simulate room rpos d obs = None.
Proof.
  exists unit_room, (0, 0), 1,
    [mkOb (SPoly [(0,0)]) (mkO 0 1 0) (mkO 0 1 0) [] [] 0 true; mkOb (SPoly [(0,0)]) (mkO 0 1 0) (mkO 0 1 0) [] [] 0 true].
  reflexivity.
Qed.
