(* Limits of shapes; what is drawn lies in the body. *)
Require Import Reals List Lra Lia Psatz ZArith.
From Verif Require Import Geom_Model Geom_Spec Geom_Proofs Geom_Proofs2 Geom_Proofs3 Geom_Proofs4.
From Verif Require Import Angle_Model Angle_Proofs Draw_Model Draw_Spec Draw_Proofs Draw_Proofs2 Draw_Proofs3.
Import ListNotations.
Open Scope R_scope.

(* ---------- limits ---------- *)
Lemma row_min_le : forall l d x, (x = d \/ In x l) -> row_min l d <= x.
Proof.
  induction l as [|a l IH]; intros d x H; cbn.
  - destruct H as [->|[]]. lra.
  - destruct H as [->|[->|H]].
    + eapply Rle_trans; [apply Rmin_r|]. apply IH. left; reflexivity.
    + apply Rmin_l.
    + eapply Rle_trans; [apply Rmin_r|]. apply IH. right; exact H.
Qed.
Lemma row_min_in : forall l d, row_min l d = d \/ In (row_min l d) l.
Proof.
  induction l as [|a l IH]; intros d; [left; reflexivity|]. change (row_min (a :: l) d) with (Rmin a (row_min l d)).
  apply Rmin_case_strong; intros _; [right; left; reflexivity|]. destruct (IH d) as [E|I]; [left; exact E|right; right; exact I].
Qed.
Lemma row_max_ge : forall l d x, (x = d \/ In x l) -> x <= row_max l d.
Proof.
  induction l as [|a l IH]; intros d x H; cbn.
  - destruct H as [->|[]]. lra.
  - destruct H as [->|[->|H]].
    + eapply Rle_trans; [|apply Rmax_r]. apply IH. left; reflexivity.
    + apply Rmax_l.
    + eapply Rle_trans; [|apply Rmax_r]. apply IH. right; exact H.
Qed.
Lemma row_max_in : forall l d, row_max l d = d \/ In (row_max l d) l.
Proof.
  induction l as [|a l IH]; intros d; [left; reflexivity|]. change (row_max (a :: l) d) with (Rmax a (row_max l d)).
  apply Rmax_case_strong; intros _; [right; left; reflexivity|]. destruct (IH d) as [E|I]; [left; exact E|right; right; exact I].
Qed.
Lemma amin_le : forall l x, In x l -> amin l <= x.
Proof. intros [|a l] x H; [destruct H|]. apply row_min_le. destruct H; auto. Qed.
Lemma amax_ge : forall l x, In x l -> x <= amax l.
Proof. intros [|a l] x H; [destruct H|]. apply row_max_ge. destruct H; auto. Qed.
Lemma amin_in : forall l, l <> [] -> In (amin l) l.
Proof.
  intros [|a l] H; [congruence|]. unfold amin. destruct (row_min_in l a) as [E|I]; [left; symmetry; exact E|right; exact I].
Qed.
Lemma amax_in : forall l, l <> [] -> In (amax l) l.
Proof.
  intros [|a l] H; [congruence|]. unfold amax. destruct (row_max_in l a) as [E|I]; [left; symmetry; exact E|right; exact I].
Qed.
Lemma hull_between : forall vs (f : P2 -> R), (forall s p q, f (between s p q) = f p + s * (f q - f p)) ->
  forall x, hull vs x -> amin (map f vs) <= f x <= amax (map f vs).
Proof.
  intros vs f F x H. induction H as [v V | s p q S P IP Q IQ].
  - split; [apply amin_le|apply amax_ge]; apply in_map; exact V.
  - rewrite F. nra.
Qed.
Lemma hull3_between : forall vs (f : P3 -> R), (forall s p q, f (between3 s p q) = f p + s * (f q - f p)) ->
  forall x, hull3 vs x -> amin (map f vs) <= f x <= amax (map f vs).
Proof.
  intros vs f F x H. induction H as [v V | s p q S P IP Q IQ].
  - split; [apply amin_le|apply amax_ge]; apply in_map; exact V.
  - fold (between3 s p q). rewrite F. nra.
Qed.
Lemma attained : forall (A : Type) (f : A -> R) (P : A -> Prop) vs y, (forall v, In v vs -> P v) -> In y (map f vs) -> exists x, P x /\ f x = y.
Proof. intros A f P vs y H I. apply in_map_iff in I. destruct I as (v & E & V). exists v. auto. Qed.
Lemma map_nil : forall (A B : Type) (f : A -> B) l, l <> [] -> map f l <> [].
Proof. intros A B f [|a l] H; [congruence|discriminate]. Qed.
Lemma polygon_limits : forall gs vs th r, vs <> [] ->
  tight_box (limits2 (polyhedron gs vs th r)) (hull (vertices2 (polyhedron gs vs th r))).
Proof.
  intros gs vs th r N. unfold polyhedron, limits2. cbn [family2 vertices2]. set (us := map (rotate th) vs).
  assert (M : us <> []) by (apply map_nil; exact N). unfold canvas_limits, tight_box. cbn [fst snd].
  split; [|split; [|split; [|split]]].
  - intros x X. split; [apply (hull_between us fst)|apply (hull_between us snd)]; try exact X; intros; reflexivity.
  - apply attained with (vs := us); [intros v V; apply hull_vertex; exact V|]. apply amin_in. apply map_nil. exact M.
  - apply attained with (vs := us); [intros v V; apply hull_vertex; exact V|]. apply amax_in. apply map_nil. exact M.
  - apply attained with (vs := us); [intros v V; apply hull_vertex; exact V|]. apply amin_in. apply map_nil. exact M.
  - apply attained with (vs := us); [intros v V; apply hull_vertex; exact V|]. apply amax_in. apply map_nil. exact M.
Qed.
Lemma circle_limits : forall r, 0 <= r -> tight_box (limits2 (circle r)) (body (checkpoints2 (circle r))).
Proof.
  intros r P. unfold limits2, circle, tight_box, checkpoints2. cbn [family2 radius2 fst snd].
  split; [|split; [|split; [|split]]].
  - intros x X. apply disc_body in X. apply dist_le_iff in X; [|exact P]. cbn [fst snd] in X. unfold Rsqr in X. split; split; nra.
  - exists (- r, 0). split; [|reflexivity]. apply disc_body. apply dist_le_iff; [exact P|]. cbn [fst snd]. unfold Rsqr. nra.
  - exists (r, 0). split; [|reflexivity]. apply disc_body. apply dist_le_iff; [exact P|]. cbn [fst snd]. unfold Rsqr. nra.
  - exists (0, - r). split; [|reflexivity]. apply disc_body. apply dist_le_iff; [exact P|]. cbn [fst snd]. unfold Rsqr. nra.
  - exists (0, r). split; [|reflexivity]. apply disc_body. apply dist_le_iff; [exact P|]. cbn [fst snd]. unfold Rsqr. nra.
Qed.
Lemma solid_limits : forall vs ss o r, vs <> [] ->
  tight_box3 (limits3 (polyhedron3 vs ss o r)) (hull3 (vertices3 (polyhedron3 vs ss o r))).
Proof.
  intros vs ss o r N. unfold polyhedron3, limits3. cbn [ball3 vertices3]. set (us := map (rot3 o) vs).
  assert (M : us <> []) by (apply map_nil; exact N). unfold tight_box3. cbn [fst snd]. unfold row3.
  split; [|split; [|split; [|split; [|split; [|split]]]]].
  - intros x X. split; [|split].
    + apply (hull3_between us (fun v => fst (fst v))); [intros; reflexivity|exact X].
    + apply (hull3_between us (fun v => snd (fst v))); [intros; reflexivity|exact X].
    + apply (hull3_between us (fun v => snd v)); [intros; reflexivity|exact X].
  - apply (attained _ (fun v => fst (fst v)) _ us); [intros v V; apply hull3_vertex; exact V|]. apply amin_in. apply map_nil. exact M.
  - apply (attained _ (fun v => fst (fst v)) _ us); [intros v V; apply hull3_vertex; exact V|]. apply amax_in. apply map_nil. exact M.
  - apply (attained _ (fun v => snd (fst v)) _ us); [intros v V; apply hull3_vertex; exact V|]. apply amin_in. apply map_nil. exact M.
  - apply (attained _ (fun v => snd (fst v)) _ us); [intros v V; apply hull3_vertex; exact V|]. apply amax_in. apply map_nil. exact M.
  - apply (attained _ (fun v => snd v) _ us); [intros v V; apply hull3_vertex; exact V|]. apply amin_in. apply map_nil. exact M.
  - apply (attained _ (fun v => snd v) _ us); [intros v V; apply hull3_vertex; exact V|]. apply amax_in. apply map_nil. exact M.
Qed.
Lemma sphere_limits : forall r, 0 <= r -> tight_box3 (limits3 (sphere r)) (body3 (checkpoints3 (sphere r))).
Proof.
  intros r P. unfold limits3, sphere, tight_box3, checkpoints3. cbn [ball3 radius3 fst snd].
  assert (K : forall p, inner3 p p <= r * r -> body3 [((0, 0, 0), r)] p).
  { intros p I. apply ball_body. apply dist3_le_iff; [exact P|]. destruct p as ((a & b) & c).
    unfold inner3, diff3 in *. cbn [fst snd] in *. nra. }
  split; [|split; [|split; [|split; [|split; [|split]]]]].
  - intros ((a & b) & c) X. apply ball_body in X. apply dist3_le_iff in X; [|exact P].
    unfold inner3, diff3 in X. cbn [fst snd] in *. split; [|split]; split; nra.
  - exists (- r, 0, 0). split; [|reflexivity]. apply K. unfold inner3. cbn [fst snd]. nra.
  - exists (r, 0, 0). split; [|reflexivity]. apply K. unfold inner3. cbn [fst snd]. nra.
  - exists (0, - r, 0). split; [|reflexivity]. apply K. unfold inner3. cbn [fst snd]. nra.
  - exists (0, r, 0). split; [|reflexivity]. apply K. unfold inner3. cbn [fst snd]. nra.
  - exists (0, 0, - r). split; [|reflexivity]. apply K. unfold inner3. cbn [fst snd]. nra.
  - exists (0, 0, r). split; [|reflexivity]. apply K. unfold inner3. cbn [fst snd]. nra.
Qed.

(* ---------- drawing ---------- *)
Lemma shown_draw2 : forall s p th x, shown (draw2 s (p, th)) x ->
  exists y, shown (surfaces2 s) y /\ x = placed p th y.
Proof.
  intros s p th x (poly & I & H). unfold draw2 in I. apply in_map_iff in I. destruct I as (surf & <- & I).
  cbn [fst snd] in H. assert (E : map (fun v => shift p (rotate th v)) surf = map (placed p th) surf).
  { apply map_ext. intro v. unfold placed. rewrite rotate_turned. apply shift_moved. }
  rewrite E in H. apply hull_affine_inv in H; [|apply placed_affine]. destruct H as (y & Y & ->).
  exists y. split; [exists surf; split; assumption|reflexivity].
Qed.
Lemma shown_draw3 : forall s p o x, shown3 (draw3 s (p, o)) x ->
  exists y, shown3 (surfaces3 s) y /\ x = placed3 p o y.
Proof.
  intros s p o x (poly & I & H). unfold draw3 in I. apply in_map_iff in I. destruct I as (surf & <- & I).
  cbn [fst snd] in H. assert (E : map (fun v => add3 p (rot3 o v)) surf = map (placed3 p o) surf).
  { apply map_ext. intro v. unfold placed3. rewrite rot3_turn3. apply add3_plus. }
  rewrite E in H. apply hull3_affine_inv in H; [|apply placed3_affine]. destruct H as (y & Y & ->).
  exists y. split; [exists surf; split; assumption|reflexivity].
Qed.
Lemma hull_body : forall cs vs x, (forall v, In v vs -> body cs v) -> hull vs x -> body cs x.
Proof.
  intros cs vs x H V. induction V as [v V | s p q S P IP Q IQ]; [auto|]. apply body_mix; assumption.
Qed.
Lemma hull3_body : forall cs vs x, (forall v, In v vs -> body3 cs v) -> hull3 vs x -> body3 cs x.
Proof.
  intros cs vs x H V. induction V as [v V | s p q S P IP Q IQ]; [auto|].
  apply (body3_mix cs s p q); assumption.
Qed.
Lemma vertex_body : forall vs r v, 0 <= r -> In v vs -> body (map (fun v => (v, r)) vs) v.
Proof.
  intros vs r v R V. apply (body_disc _ v r); [apply in_map_iff; exists v; auto|]. rewrite dist_refl. exact R.
Qed.
Lemma vertex_body3 : forall vs r v, 0 <= r -> In v vs -> body3 (map (fun v => (v, r)) vs) v.
Proof.
  intros vs r v R V. apply (body3_ball _ v r); [apply in_map_iff; exists v; auto|]. rewrite dist3_refl. exact R.
Qed.
Lemma thin_pos : 0 <= thin. Proof. unfold thin. lra. Qed.

Lemma plain_shown : forall vs th r x, 0 <= r ->
  shown (surfaces2 (polyhedron plain_surface vs th r)) x -> body (checkpoints2 (polyhedron plain_surface vs th r)) x.
Proof.
  intros vs th r x R (poly & [<-|[]] & H). unfold checkpoints2. cbn [polyhedron family2 vertices2 radius2].
  apply (hull_body _ (map (rotate th) vs)); [|exact H]. intros v V. apply vertex_body; assumption.
Qed.
Lemma circle_shown : forall r x, 0 <= r -> shown (surfaces2 (circle r)) x -> body (checkpoints2 (circle r)) x.
Proof.
  intros r x R (poly & [<-|[]] & H). unfold checkpoints2. cbn [circle family2 radius2].
  apply (hull_body _ (circle_outline r)); [|exact H]. intros v V. unfold circle_outline in V. apply in_map_iff in V.
  destruct V as (s & <- & _). apply (body_disc _ (0, 0) r); [left; reflexivity|]. apply dist_le_iff; [exact R|].
  cbn [fst snd]. unfold Rsqr. pose proof (cs2 (s * 2 * PI)). nra.
Qed.
Lemma beam_shown : forall w h th x, 0 <= h -> shown (surfaces2 (beam w h th)) x -> body (checkpoints2 (beam w h th)) x.
Proof.
  intros w h th x R (poly & I & H). unfold beam, polyhedron, beam_outline in I. cbn [surfaces2 map nth] in I.
  destruct I as [<-|[]]. eapply hull_body; [|exact H]. intros v V. unfold checkpoints2, beam, polyhedron.
  cbn [family2 vertices2 radius2]. apply in_map_iff in V. destruct V as (u & <- & U).
  assert (Q : exists e, In e [(w / 2, 0); (- (w / 2), 0)] /\ dist e u <= h / 2).
  { apply in_app_or in U. destruct U as [U|U]; apply in_map_iff in U; destruct U as (s & <- & _).
    - exists (w / 2, 0). split; [left; reflexivity|]. apply dist_le_iff; [lra|]. cbn [fst snd]. unfold Rsqr.
      pose proof (cs2 (s * PI - PI / 2)). nra.
    - exists (- (w / 2), 0). split; [right; left; reflexivity|]. apply dist_le_iff; [lra|]. cbn [fst snd]. unfold Rsqr.
      pose proof (cs2 (s * PI + PI / 2)). nra. }
  destruct Q as (e & E & D). apply (body_disc _ (rotate th e) (h / 2)).
  - apply in_map_iff. exists (rotate th e). split; [reflexivity|]. apply in_map. exact E.
  - rewrite !rotate_turned, dist_turned. exact D.
Qed.
Lemma ufo_shown : forall w h th x, 0 <= w -> 0 <= h -> shown (surfaces2 (ufo w h th)) x -> body (checkpoints2 (ufo w h th)) x.
Proof.
  intros w h th x W P (poly & I & H). unfold ufo, polyhedron, ufo_outline in I. cbn [surfaces2 map] in I.
  destruct I as [<-|[]]. unfold checkpoints2, ufo, polyhedron. cbn [family2 vertices2 radius2].
  apply (hull_body _ (map (rotate th) (rectangle_base w h))); [intros v V; apply vertex_body; [apply thin_pos|exact V]|].
  eapply hull_incl; [|exact H]. intros v V. apply in_map_iff in V. destruct V as (u & <- & U).
  apply hull_affine; [apply rotate_affine|]. apply rectangle_hull; [exact W|exact P|].
  cbn [combine] in U. repeat (destruct U as [<-|U]; [cbn [fst snd]; split; apply Rabs_le_iff; split; lra|]). destruct U.
Qed.
Theorem drawn_in_body : forall s p th x, made s -> shown (draw2 s (p, th)) x ->
  exists y, body (checkpoints2 s) y /\ x = placed p th y.
Proof.
  intros s p th x M H. apply shown_draw2 in H. destruct H as (y & Y & E). exists y. split; [|exact E]. clear E.
  destruct M; [apply circle_shown|apply plain_shown|apply plain_shown|apply plain_shown|apply plain_shown|apply beam_shown|apply ufo_shown];
    try assumption; apply thin_pos.
Qed.

Lemma rot3_inner : forall o u v, inner3 (rot3 o u) (rot3 o v) = inner3 u v.
Proof. intros ((a & b) & c) u v. apply rotate3_inner. Qed.
Lemma sphere_pnt_inner : forall r k l, inner3 (sphere_pnt r k l) (sphere_pnt r k l) = r * r.
Proof.
  intros r k l. unfold sphere_pnt. rewrite rot3_inner. unfold inner3. cbn [fst snd].
  set (a := INR k * PI / (2 * (5 - 1))). pose proof (cs2 a). nra.
Qed.
Lemma mirrored_inner : forall v, inner3 (mirrored v) (mirrored v) = inner3 v v.
Proof. intros ((a & b) & c). unfold mirrored, inner3. cbn [fst snd]. ring. Qed.
Lemma sphere_shown : forall r x, 0 <= r -> shown3 (surfaces3 (sphere r)) x -> body3 (checkpoints3 (sphere r)) x.
Proof.
  intros r x R (poly & I & H). unfold sphere in I. cbn [surfaces3] in I. unfold sphere_surfaces in I.
  apply in_flat_map in I. destruct I as (k & _ & I). apply in_flat_map in I. destruct I as (l & _ & I).
  unfold checkpoints3, sphere. cbn [ball3 radius3]. apply (hull3_body _ poly); [|exact H]. intros v V.
  assert (E : inner3 v v = r * r).
  { unfold sphere_facets in I. destruct I as [<-|[<-|[]]].
    - repeat (destruct V as [<-|V]; [apply sphere_pnt_inner|]). destruct V.
    - apply in_map_iff in V. destruct V as (u & <- & U). rewrite mirrored_inner.
      repeat (destruct U as [<-|U]; [apply sphere_pnt_inner|]). destruct U. }
  apply ball_body. apply dist3_le_iff; [exact R|]. rewrite <- E. destruct v as ((a & b) & c).
  unfold inner3, diff3. cbn [fst snd]. nra.
Qed.
Lemma polyhedron3_shown : forall vs ss o r x, 0 <= r -> (forall s v, In s ss -> In v s -> In v vs) ->
  shown3 (surfaces3 (polyhedron3 vs ss o r)) x -> body3 (checkpoints3 (polyhedron3 vs ss o r)) x.
Proof.
  intros vs ss o r x R I (poly & J & H). unfold checkpoints3. cbn [polyhedron3 ball3 vertices3 radius3].
  cbn [polyhedron3 surfaces3] in J. apply in_map_iff in J. destruct J as (s & <- & J).
  apply (hull3_body _ (map (rot3 o) s)); [|exact H]. intros v V. apply in_map_iff in V. destruct V as (u & <- & U).
  apply vertex_body3; [exact R|]. apply in_map. apply (I s); assumption.
Qed.
Lemma prism_surfaces_in : forall n vs s v, (1 <= n)%nat -> length vs = (n + n)%nat ->
  In s (prism_surfaces n vs) -> In v s -> In v vs.
Proof.
  intros n vs s v N L I V. unfold prism_surfaces in I. destruct I as [<-|[<-|I]].
  - apply in_map_iff in V. destruct V as (k & <- & K). apply in_seq in K. apply nth_In. lia.
  - apply in_map_iff in V. destruct V as (k & <- & K). apply in_seq in K. apply nth_In. lia.
  - apply in_map_iff in I. destruct I as (l & <- & K). apply in_seq in K.
    assert (M : ((l + 1) mod n < n)%nat) by (apply Nat.mod_upper_bound; lia).
    destruct V as [<-|[<-|[<-|[<-|[]]]]]; apply nth_In; lia.
Qed.
Lemma stacked_length : forall base h, length (stacked base h) = (length base + length base)%nat.
Proof. intros. unfold stacked. rewrite app_length, !map_length. reflexivity. Qed.
Theorem drawn_in_body3 : forall s p o x, made3 s -> shown3 (draw3 s (p, o)) x ->
  exists y, body3 (checkpoints3 s) y /\ x = placed3 p o y.
Proof.
  intros s p o x M H. apply shown_draw3 in H. destruct H as (y & Y & E). exists y. split; [|exact E]. clear E.
  destruct M as [r R | r h n q N | w d h q | a q | vs th r height q s R Q].
  - apply sphere_shown; assumption.
  - apply polyhedron3_shown; [apply thin_pos| |exact Y]. intros s v. apply prism_surfaces_in; [exact N|].
    rewrite stacked_length, regular_length. reflexivity.
  - apply polyhedron3_shown; [apply thin_pos| |exact Y]. intros s v. apply prism_surfaces_in; [lia|].
    rewrite stacked_length. reflexivity.
  - apply polyhedron3_shown; [apply thin_pos| |exact Y]. intros s v. apply prism_surfaces_in; [lia|].
    rewrite stacked_length. reflexivity.
  - unfold plate, polyhedron in Q. cbn [family2 vertices2 surfaces2] in Q. injection Q as <-.
    apply polyhedron3_shown; [lra| |exact Y]. intros s v [<-|[]] V. exact V.
Qed.
