Require Import Reals List ZArith Lra Lia Bool Psatz.
Require Import Verif.Geom_Model Verif.Geom_Spec Verif.Geom_Proofs.
Import ListNotations.
Open Scope bool_scope.
Open Scope R_scope.

(* ---------- lines ---------- *)

Definition crossp (p1 p2 p3 p4 : P2) : R :=
  (fst p1 - fst p2) * (snd p3 - snd p4) - (snd p1 - snd p2) * (fst p3 - fst p4).

Lemma intersect_lines_some : forall l1 l2 x, intersect_lines l1 l2 = Some x ->
  on_line (fst l1) (snd l1) x /\ on_line (fst l2) (snd l2) x /\
  forall y, on_line (fst l1) (snd l1) y -> on_line (fst l2) (snd l2) y -> y = x.
Proof.
  intros [[x1 y1] [x2 y2]] [[x3 y3] [x4 y4]] x H; unfold intersect_lines in H; cbn [fst snd].
  destruct (Reqb0 _) eqn:E; [discriminate |].
  assert (HD : (x1 - x2) * (y3 - y4) - (y1 - y2) * (x3 - x4) <> 0).
  { intros H0. apply Reqb0_eq in H0. congruence. }
  injection H as <-. set (D := (x1 - x2) * (y3 - y4) - (y1 - y2) * (x3 - x4)) in *.
  split; [| split].
  - exists (((x1 - x3) * (y3 - y4) - (y1 - y3) * (x3 - x4)) / D).
    unfold between; cbn [fst snd]; f_equal; field_simplify_eq; auto; unfold D; ring.
  - exists (((x1 - x3) * (y1 - y2) - (y1 - y3) * (x1 - x2)) / D).
    unfold between; cbn [fst snd]; f_equal; field_simplify_eq; auto; unfold D; ring.
  - intros y [s ->] [t Ht]. unfold between in *; cbn [fst snd] in *. injection Ht as Hx Hy.
    assert (Hs : s * D = (x1 - x3) * (y3 - y4) - (y1 - y3) * (x3 - x4)).
    { unfold D. transitivity (- ((s * (x2 - x1)) * (y3 - y4) - (s * (y2 - y1)) * (x3 - x4))); [ring |].
      replace (s * (x2 - x1)) with (x3 + t * (x4 - x3) - x1) by lra.
      replace (s * (y2 - y1)) with (y3 + t * (y4 - y3) - y1) by lra. ring. }
    assert (Hs' : s = ((x1 - x3) * (y3 - y4) - (y1 - y3) * (x3 - x4)) / D).
    { rewrite <- Hs. field; auto. }
    rewrite Hs'. f_equal; field_simplify_eq; auto; unfold D; ring.
Qed.
Lemma intersect_lines_none : forall l1 l2, fst l1 <> snd l1 ->
  (intersect_lines l1 l2 = None <->
   exists k, fst (snd l2) - fst (fst l2) = k * (fst (snd l1) - fst (fst l1)) /\
             snd (snd l2) - snd (fst l2) = k * (snd (snd l1) - snd (fst l1))).
Proof.
  intros [[x1 y1] [x2 y2]] [[x3 y3] [x4 y4]] Hne; unfold intersect_lines; cbn [fst snd] in *.
  destruct (Reqb0 _) eqn:E; split; intros H; auto.
  - apply Reqb0_eq in E.
    destruct (Req_dec x1 x2) as [-> | Hx].
    + assert (y1 <> y2) by (intros ->; auto). exists ((y4 - y3) / (y2 - y1)).
      assert (Hz : (y1 - y2) * (x3 - x4) = 0) by lra. apply Rmult_integral in Hz.
      split; [lra |]. field; lra.
    + exists ((x4 - x3) / (x2 - x1)). split; [field; lra |].
      field_simplify_eq; lra.
  - discriminate.
  - destruct H as [k [Hx Hy]].
    assert (HD : (x1 - x2) * (y3 - y4) - (y1 - y2) * (x3 - x4) = 0).
    { replace (y3 - y4) with (- (k * (y2 - y1))) by lra. replace (x3 - x4) with (- (k * (x2 - x1))) by lra. ring. }
    apply Reqb0_eq in HD. congruence.
Qed.

(* signed area of the triangle p q x (twice) *)
Definition area (p q x : P2) : R := (fst q - fst p) * (snd x - snd p) - (snd q - snd p) * (fst x - fst p).
Lemma ccw_area : forall p q x, order_is_ccw p q x = true <-> 0 < area p q x.
Proof. intros; unfold order_is_ccw, area; rewrite Rltb_lt; split; intros; lra. Qed.
Lemma ccw_area_f : forall p q x, order_is_ccw p q x = false <-> area p q x <= 0.
Proof. intros; unfold order_is_ccw, area; rewrite Rltb_ge; split; intros; lra. Qed.

Lemma segments_meet : forall p1 p2 p3 p4,
  let c1 := area p1 p3 p4 in let c2 := area p2 p3 p4 in
  let c3 := area p1 p2 p3 in let c4 := area p1 p2 p4 in
  (0 < c1 /\ c2 <= 0 \/ c1 <= 0 /\ 0 < c2) -> (0 < c3 /\ c4 <= 0 \/ c3 <= 0 /\ 0 < c4) ->
  exists x, on_segment p1 p2 x /\ on_segment p3 p4 x.
Proof.
  intros p1 p2 p3 p4 c1 c2 c3 c4 H1 H2.
  assert (Hd : c1 - c2 = c4 - c3) by (unfold c1, c2, c3, c4, area; ring).
  assert (Hn : c1 - c2 <> 0) by (destruct H1; lra).
  exists (between (c1 / (c1 - c2)) p1 p2). split.
  - exists (c1 / (c1 - c2)). split; auto.
    assert (Hi : 0 <= (c1 / (c1 - c2)) /\ 0 <= 1 - (c1 / (c1 - c2))); [| lra].
    destruct H1 as [[A B] | [A B]].
    + assert (0 < c1 - c2) by lra. split.
      * apply Rlt_le, Rdiv_lt_0_compat; lra.
      * replace (1 - c1 / (c1 - c2)) with (- c2 / (c1 - c2)) by (field; lra).
        apply Rmult_le_pos; [lra | apply Rlt_le, Rinv_0_lt_compat; lra].
    + assert (0 < c2 - c1) by lra. split.
      * replace (c1 / (c1 - c2)) with (- c1 / (c2 - c1)) by (field; lra).
        apply Rmult_le_pos; [lra | apply Rlt_le, Rinv_0_lt_compat; lra].
      * replace (1 - c1 / (c1 - c2)) with (c2 / (c2 - c1)) by (field; lra).
        apply Rmult_le_pos; [lra | apply Rlt_le, Rinv_0_lt_compat; lra].
  - exists (c3 / (c3 - c4)). assert (Hn' : c3 - c4 <> 0) by lra. split.
    + assert (Hi : 0 <= (c3 / (c3 - c4)) /\ 0 <= 1 - (c3 / (c3 - c4))); [| lra].
      destruct H2 as [[A B] | [A B]].
      * assert (0 < c3 - c4) by lra. split.
        -- apply Rlt_le, Rdiv_lt_0_compat; lra.
        -- replace (1 - c3 / (c3 - c4)) with (- c4 / (c3 - c4)) by (field; lra).
           apply Rmult_le_pos; [lra | apply Rlt_le, Rinv_0_lt_compat; lra].
      * assert (0 < c4 - c3) by lra. split.
        -- replace (c3 / (c3 - c4)) with (- c3 / (c4 - c3)) by (field; lra).
           apply Rmult_le_pos; [lra | apply Rlt_le, Rinv_0_lt_compat; lra].
        -- replace (1 - c3 / (c3 - c4)) with (c4 / (c4 - c3)) by (field; lra).
           apply Rmult_le_pos; [lra | apply Rlt_le, Rinv_0_lt_compat; lra].
    + replace (c3 - c4) with (- (c1 - c2)) in * by lra.
      unfold between; f_equal; field_simplify_eq; auto; unfold c1, c2, c3, c4, area; ring.
Qed.
Lemma segments_sound : forall p1 p2 p3 p4, intersect_line_segments p1 p2 p3 p4 = true ->
  exists x, on_segment p1 p2 x /\ on_segment p3 p4 x.
Proof.
  intros p1 p2 p3 p4 H; unfold intersect_line_segments in H.
  apply andb_prop in H as [H1 H2]. apply segments_meet.
  - destruct (order_is_ccw p1 p3 p4) eqn:A; destruct (order_is_ccw p2 p3 p4) eqn:B; simpl in H1; try discriminate;
      [left | right]; split; first [apply ccw_area; assumption | apply ccw_area_f; assumption].
  - destruct (order_is_ccw p1 p2 p3) eqn:A; destruct (order_is_ccw p1 p2 p4) eqn:B; simpl in H2; try discriminate;
      [left | right]; split; first [apply ccw_area; assumption | apply ccw_area_f; assumption].
Qed.
Lemma opp_signs : forall x y, x * y < 0 -> (0 < x /\ y <= 0) \/ (x <= 0 /\ 0 < y).
Proof.
  intros x y H. destruct (Rle_or_lt x 0); [right | left]; split; auto; nra.
Qed.
Lemma segments_crossing : forall p1 p2 p3 p4 s t,
  0 < s < 1 -> 0 < t < 1 -> between s p1 p2 = between t p3 p4 ->
  (fst p2 - fst p1) * (snd p4 - snd p3) - (snd p2 - snd p1) * (fst p4 - fst p3) <> 0 ->
  intersect_line_segments p1 p2 p3 p4 = true.
Proof.
  intros [x1 y1] [x2 y2] [x3 y3] [x4 y4] s t Hs Ht HE HD. cbn [fst snd] in HD.
  set (D := (x2 - x1) * (y4 - y3) - (y2 - y1) * (x4 - x3)) in *.
  unfold between in HE; cbn [fst snd] in HE; injection HE as Hx Hy.
  assert (Ex : x3 = x1 + s * (x2 - x1) - t * (x4 - x3)) by lra.
  assert (Ey : y3 = y1 + s * (y2 - y1) - t * (y4 - y3)) by lra.
  assert (A1 : area (x1, y1) (x3, y3) (x4, y4) = s * D).
  { unfold area, D; cbn [fst snd].
    transitivity ((x3 - x1) * (y4 - y3) - (y3 - y1) * (x4 - x3)); [ring |].
    replace (x3 - x1) with (s * (x2 - x1) - t * (x4 - x3)) by lra.
    replace (y3 - y1) with (s * (y2 - y1) - t * (y4 - y3)) by lra. ring. }
  assert (A2 : area (x2, y2) (x3, y3) (x4, y4) = - (1 - s) * D).
  { unfold area, D; cbn [fst snd].
    transitivity ((x3 - x2) * (y4 - y3) - (y3 - y2) * (x4 - x3)); [ring |].
    replace (x3 - x2) with (- (1 - s) * (x2 - x1) - t * (x4 - x3)) by lra.
    replace (y3 - y2) with (- (1 - s) * (y2 - y1) - t * (y4 - y3)) by lra. ring. }
  assert (A3 : area (x1, y1) (x2, y2) (x3, y3) = - t * D).
  { unfold area, D; cbn [fst snd].
    replace (x3 - x1) with (s * (x2 - x1) - t * (x4 - x3)) by lra.
    replace (y3 - y1) with (s * (y2 - y1) - t * (y4 - y3)) by lra. ring. }
  assert (A4 : area (x1, y1) (x2, y2) (x4, y4) = (1 - t) * D).
  { unfold area, D; cbn [fst snd].
    replace (x4 - x1) with (s * (x2 - x1) + (1 - t) * (x4 - x3)) by lra.
    replace (y4 - y1) with (s * (y2 - y1) + (1 - t) * (y4 - y3)) by lra. ring. }
  assert (HC : forall p q x b, (b = true -> 0 < area p q x) -> (b = false -> area p q x <= 0) -> order_is_ccw p q x = b).
  { intros p q x [] H1 H2; [apply ccw_area; auto | apply ccw_area_f; auto]. }
  unfold intersect_line_segments.
  destruct (Rlt_le_dec 0 D) as [Hp | Hp].
  - rewrite (HC _ _ _ true), (HC (x2, y2) _ _ false), (HC (x1, y1) (x2, y2) (x3, y3) false), (HC _ _ (x4, y4) true);
      auto; intros; try discriminate; rewrite ?A1, ?A2, ?A3, ?A4; nra.
  - assert (D < 0) by lra.
    rewrite (HC (x1, y1) (x3, y3) _ false), (HC (x2, y2) _ _ true), (HC (x1, y1) (x2, y2) (x3, y3) true), (HC (x1, y1) (x2, y2) (x4, y4) false);
      auto; intros; try discriminate; rewrite ?A1, ?A2, ?A3, ?A4; nra.
Qed.

(* ---------- sides of a polygon ---------- *)

Lemma pairs_nth : forall f vs k, nth_error (pairs_from f vs) k =
  match nth_error vs k with
  | Some p => Some (p, match nth_error vs (S k) with Some q => q | None => f end)
  | None => None
  end.
Proof.
  intros f vs; induction vs as [| v vs IH]; intros [| k]; auto.
  - destruct vs; reflexivity.
  - destruct vs as [| w vs].
    + simpl. destruct k; reflexivity.
    + change (nth_error (pairs_from f (v :: w :: vs)) (S k)) with (nth_error (pairs_from f (w :: vs)) k).
      rewrite IH. reflexivity.
Qed.
Lemma sides_edge : forall vs p q, In (p, q) (sides vs) <-> edge vs p q.
Proof.
  intros vs p q; unfold edge. destruct vs as [| v vs].
  - simpl. split; [tauto |]. intros [k [H _]]; simpl in H; lia.
  - unfold sides. split.
    + intros H. apply In_nth_error in H as [k H]. rewrite pairs_nth in H.
      destruct (nth_error (v :: vs) k) as [p' |] eqn:E; [| discriminate].
      assert (Hq : match nth_error (v :: vs) (S k) with Some q => q | None => v end = q) by congruence.
      assert (p' = p) by congruence. subst p'. clear H. rename Hq into H. assert (Hk : (k < length (v :: vs))%nat) by (apply nth_error_Some; congruence).
      exists k; split; [auto | split; auto].
      destruct (Nat.eq_dec (S k) (length (v :: vs))) as [e | n].
      * rewrite e, Nat.mod_same by (simpl; lia).
        rewrite (proj2 (nth_error_None (v :: vs) (S k))) in H by (simpl in *; lia). subst; reflexivity.
      * rewrite Nat.mod_small by (simpl in *; lia).
        destruct (nth_error (v :: vs) (S k)) eqn:E2; [subst; auto |].
        apply nth_error_None in E2. simpl in *; lia.
    + intros [k [Hk [H1 H2]]]. apply (nth_error_In _ k). rewrite pairs_nth, H1. do 2 f_equal.
      destruct (Nat.eq_dec (S k) (length (v :: vs))) as [e | n].
      * rewrite e, Nat.mod_same in H2 by (simpl; lia).
        rewrite (proj2 (nth_error_None (v :: vs) (S k))) by (simpl in *; lia). simpl in H2. congruence.
      * rewrite Nat.mod_small in H2 by (simpl in *; lia). rewrite H2. reflexivity.
Qed.
Lemma edge_map : forall (f : P2 -> P2) vs p q, edge vs p q -> edge (map f vs) (f p) (f q).
Proof.
  intros f vs p q [k [Hk [H1 H2]]]. exists k. rewrite map_length. split; [auto |].
  split; apply map_nth_error; auto.
Qed.
Lemma edge_map_inv : forall (f : P2 -> P2) vs p q, edge (map f vs) p q ->
  exists p' q', edge vs p' q' /\ p = f p' /\ q = f q'.
Proof.
  intros f vs p q [k [Hk [H1 H2]]]. rewrite map_length in *. rewrite nth_error_map in *.
  destruct (nth_error vs k) as [p' |] eqn:E1; [| discriminate].
  destruct (nth_error vs (S k mod length vs)) as [q' |] eqn:E2; [| discriminate].
  simpl in *. exists p', q'. split; [exists k; auto |]. split; congruence.
Qed.
Lemma edge_in : forall vs p q, edge vs p q -> In p vs /\ In q vs.
Proof. intros vs p q [k [_ [H1 H2]]]; split; eapply nth_error_In; eassumption. Qed.

(* point_in_polyhedron *)
Lemma hyperplane_value : forall pos p q x, p <> q ->
  let h := hyperplane pos (p, q) in
  fst (fst h) * fst x + snd (fst h) * snd x - snd h =
  area (moved pos p) (moved pos q) x / dist p q.
Proof.
  intros [u w] [x1 y1] [x2 y2] [x y] Hne. cbn [hyperplane fst snd].
  assert (Hd : dist (x1, y1) (x2, y2) = sqrt ((x2 - x1) ^ 2 + (y2 - y1) ^ 2)).
  { unfold dist, Rsqr; cbn [fst snd]; f_equal; ring. }
  rewrite Hd. pose proof (line_den_pos _ _ Hne) as Hp. cbn [fst snd] in Hp.
  assert (0 < sqrt ((x2 - x1) ^ 2 + (y2 - y1) ^ 2)) by (apply sqrt_lt_R0; lra).
  unfold area, moved; cbn [fst snd]. field. lra.
Qed.
Lemma dist_pos : forall p q, p <> q -> 0 < dist p q.
Proof.
  intros p q H. pose proof (line_den_pos _ _ H). unfold dist. apply sqrt_lt_R0. unfold Rsqr. lra.
Qed.
Lemma in_polyhedron_iff : forall x vs pos m, (forall p q, edge vs p q -> p <> q) ->
  (point_in_polyhedron x vs pos m = true <->
   forall p q, edge vs p q -> area (moved pos p) (moved pos q) x <= m * dist p q).
Proof.
  intros x vs pos m Hne. unfold point_in_polyhedron, get_hyperplanes. rewrite forallb_forall.
  split.
  - intros H p q He. specialize (H (hyperplane pos (p, q))).
    assert (Hi : In (hyperplane pos (p, q)) (map (hyperplane pos) (sides vs)))
      by (apply in_map, sides_edge; auto).
    apply H in Hi. apply negb_true_iff, Rltb_ge in Hi.
    pose proof (hyperplane_value pos p q x (Hne _ _ He)) as HV. cbv zeta in HV. rewrite HV in Hi.
    pose proof (dist_pos _ _ (Hne _ _ He)) as Hd.
    apply (Rmult_le_compat_r (dist p q)) in Hi; [| lra].
    replace ((area (moved pos p) (moved pos q) x / dist p q - m) * dist p q)
      with (area (moved pos p) (moved pos q) x - m * dist p q) in Hi by (field; lra). lra.
  - intros H h Hh. apply in_map_iff in Hh as [[p q] [<- Hi]]. apply sides_edge in Hi.
    apply negb_true_iff, Rltb_ge.
    pose proof (hyperplane_value pos p q x (Hne _ _ Hi)) as HV. cbv zeta in HV. rewrite HV.
    specialize (H _ _ Hi). pose proof (dist_pos _ _ (Hne _ _ Hi)) as Hd.
    apply (Rmult_le_reg_r (dist p q)); auto.
    replace ((area (moved pos p) (moved pos q) x / dist p q - m) * dist p q)
      with (area (moved pos p) (moved pos q) x - m * dist p q) by (field; lra). lra.
Qed.
Lemma in_polyhedron_hull : forall x vs pos, (forall p q, edge vs p q -> p <> q) ->
  (forall p q v, edge vs p q -> In v vs -> right_of p q v) ->
  hull (map (moved pos) vs) x -> point_in_polyhedron x vs pos 0 = true.
Proof.
  intros x vs pos Hne Hcw Hx. apply in_polyhedron_iff; auto. intros p q He.
  set (a := (- (snd q - snd p), fst q - fst p) : P2).
  assert (H : forall v, In v (map (moved pos) vs) ->
    fst a * fst v + snd a * snd v <= fst a * fst (moved pos p) + snd a * snd (moved pos p)).
  { intros v Hv. apply in_map_iff in Hv as [v' [<- Hv]]. specialize (Hcw _ _ _ He Hv).
    unfold right_of in Hcw. unfold a, moved; cbn [fst snd]. lra. }
  pose proof (hull_halfplane _ _ _ H _ Hx) as HH. unfold a, moved, area in *; cbn [fst snd] in *. lra.
Qed.

(* ---------- shapes ---------- *)

Lemma cos_3PI2 : cos (3 * (PI / 2)) = 0.
Proof. replace (3 * (PI / 2)) with (PI / 2 + PI) by field. rewrite neg_cos, cos_PI2. ring. Qed.
Lemma sin_3PI2 : sin (3 * (PI / 2)) = -1.
Proof. replace (3 * (PI / 2)) with (PI / 2 + PI) by field. rewrite neg_sin, sin_PI2. ring. Qed.
Lemma face4 : map (face (PI / 2)) [0; 1; 2; 3]%nat = [(0, 1); (1, 0); (0, -1); (-1, 0)].
Proof.
  unfold face; cbn [map INR].
  replace (0 * (PI / 2)) with 0 by ring. replace (1 * (PI / 2)) with (PI / 2) by ring.
  replace ((1 + 1) * (PI / 2)) with PI by field. replace ((1 + 1 + 1) * (PI / 2)) with (3 * (PI / 2)) by ring.
  rewrite sin_0, cos_0, sin_PI2, cos_PI2, sin_PI, cos_PI, sin_3PI2, cos_3PI2. reflexivity.
Qed.
Lemma rectangle_base_eq : forall w h, rectangle_base w h =
  [(w / 2, h / 2); (w / 2, - (h / 2)); (- (w / 2), - (h / 2)); (- (w / 2), h / 2)].
Proof.
  intros w h. pose proof face4 as F. cbn [map] in F.
  assert (F0 : face (PI / 2) 0 = (0, 1)) by congruence.
  assert (F1 : face (PI / 2) 1 = (1, 0)) by congruence.
  assert (F2 : face (PI / 2) 2 = (0, -1)) by congruence.
  assert (F3 : face (PI / 2) 3 = (-1, 0)) by congruence. clear F.
  unfold rectangle_base. cbn [seq map]. unfold face_vertex.
  replace ((0 + 1) mod 4)%nat with 1%nat by reflexivity. replace ((1 + 1) mod 4)%nat with 2%nat by reflexivity.
  replace ((2 + 1) mod 4)%nat with 3%nat by reflexivity. replace ((3 + 1) mod 4)%nat with 0%nat by reflexivity.
  rewrite F0, F1, F2, F3. unfold solve2; cbn [fst snd nth].
  repeat (f_equal; try field).
Qed.
Lemma rotate_turned : forall th v, rotate th v = turned th v.
Proof. intros; unfold rotate, turned; f_equal; ring. Qed.
Lemma rectangle_vertices_eq : forall w h th, rectangle_vertices w h th =
  map (turned th) [(w / 2, h / 2); (w / 2, - (h / 2)); (- (w / 2), - (h / 2)); (- (w / 2), h / 2)].
Proof.
  intros. unfold rectangle_vertices. rewrite rectangle_base_eq. apply map_ext. apply rotate_turned.
Qed.

Lemma cs2 : forall th, cos th * cos th + sin th * sin th = 1.
Proof. intros; pose proof (sin2_cos2 th); unfold Rsqr in *; lra. Qed.

Lemma dist_turned : forall th p q, dist (turned th p) (turned th q) = dist p q.
Proof.
  intros th [a b] [c d]; unfold dist, turned, Rsqr; cbn [fst snd]; f_equal.
  transitivity ((cos th * cos th + sin th * sin th) * ((a - c) * (a - c) + (b - d) * (b - d))); [ring |].
  rewrite cs2; ring.
Qed.
Lemma area_turned : forall th p q x, area (turned th p) (turned th q) (turned th x) = area p q x.
Proof.
  intros th [a b] [c d] [e f]; unfold area, turned; cbn [fst snd].
  transitivity ((cos th * cos th + sin th * sin th) * ((c - a) * (f - b) - (d - b) * (e - a))); [ring |].
  rewrite cs2; ring.
Qed.
Lemma area_moved : forall t p q x, area (moved t p) (moved t q) (moved t x) = area p q x.
Proof. intros [a b] [c d] [e f] [g h]; unfold area, moved; cbn [fst snd]; ring. Qed.
Lemma turned_back : forall th x, turned th (turned (- th) x) = x.
Proof.
  intros th [a b]; unfold turned; cbn [fst snd]. rewrite cos_neg, sin_neg.
  f_equal.
  - transitivity ((cos th * cos th + sin th * sin th) * a); [ring | rewrite cs2; ring].
  - transitivity ((cos th * cos th + sin th * sin th) * b); [ring | rewrite cs2; ring].
Qed.
Lemma moved_back : forall c x, moved c (moved (- fst c, - snd c) x) = x.
Proof. intros [a b] [x y]; unfold moved; cbn [fst snd]; f_equal; ring. Qed.

Lemma edges4 : forall a b c d p q, edge [a; b; c; d] p q <->
  (p = a /\ q = b) \/ (p = b /\ q = c) \/ (p = c /\ q = d) \/ (p = d /\ q = a).
Proof.
  intros a b c d p q. rewrite <- sides_edge. simpl. intuition congruence.
Qed.

Lemma dist_vert : forall x y y', dist (x, y) (x, y') = Rabs (y - y').
Proof. intros; unfold dist; cbn [fst snd]. replace (x - x) with 0 by ring. rewrite Rsqr_0, Rplus_0_l. apply sqrt_Rsqr_abs. Qed.
Lemma dist_horz : forall x x' y, dist (x, y) (x', y) = Rabs (x - x').
Proof. intros; unfold dist; cbn [fst snd]. replace (y - y) with 0 by ring. rewrite Rsqr_0, Rplus_0_r. apply sqrt_Rsqr_abs. Qed.

Lemma in_rectangle_iff : forall w h th pos m x, 0 < w -> 0 < h ->
  (point_in_polyhedron x (rectangle_vertices w h th) pos m = true <->
   in_rect pos (w + 2 * m) (h + 2 * m) th x).
Proof.
  intros w h th pos m x Hw Hh. rewrite rectangle_vertices_eq.
  set (y := turned (- th) (moved (- fst pos, - snd pos) x)).
  assert (Hxy : x = moved pos (turned th y)) by (unfold y; rewrite turned_back, moved_back; auto).
  assert (HA : forall p q, area (moved pos (turned th p)) (moved pos (turned th q)) x = area p q y)
    by (intros; rewrite Hxy, area_moved, area_turned; auto).
  assert (Hy1 : cos th * (fst x - fst pos) + sin th * (snd x - snd pos) = fst y)
    by (unfold y, turned, moved; cbn [fst snd]; rewrite cos_neg, sin_neg; ring).
  assert (Hy2 : - sin th * (fst x - fst pos) + cos th * (snd x - snd pos) = snd y)
    by (unfold y, turned, moved; cbn [fst snd]; rewrite cos_neg, sin_neg; ring).
  unfold in_rect. rewrite Hy1, Hy2. clearbody y. destruct y as [y1 y2]. cbn [fst snd].
  cbn [map]. rewrite in_polyhedron_iff.
  2:{ intros p q He E. subst q. apply edges4 in He.
      assert (HH : forall u v, turned th u = turned th v -> dist u v = 0).
      { intros u v E. rewrite <- (dist_turned th), E. unfold dist. rewrite !Rminus_eq_0, Rsqr_0, Rplus_0_l. apply sqrt_0. }
      destruct He as [[-> E] | [[-> E] | [[-> E] | [-> E]]]]; apply HH in E;
        first [rewrite dist_vert in E | rewrite dist_horz in E]; revert E; unfold Rabs; destruct Rcase_abs; lra. }
  assert (HL : forall u v, Rabs u <= v <-> (- v <= u /\ u <= v)).
  { intros u v. unfold Rabs; destruct Rcase_abs; split; intros; lra. }
  rewrite !HL. split.
  - intros H.
    assert (E1 := H _ _ (proj2 (edges4 _ _ _ _ _ _) (or_introl (conj eq_refl eq_refl)))).
    assert (E2 := H _ _ (proj2 (edges4 _ _ _ _ _ _) (or_intror (or_introl (conj eq_refl eq_refl))))).
    assert (E3 := H _ _ (proj2 (edges4 _ _ _ _ _ _) (or_intror (or_intror (or_introl (conj eq_refl eq_refl)))))).
    assert (E4 := H _ _ (proj2 (edges4 _ _ _ _ _ _) (or_intror (or_intror (or_intror (conj eq_refl eq_refl)))))).
    clear H. rewrite HA, dist_turned in E1, E2, E3, E4.
    rewrite ?dist_vert, ?dist_horz in E1. rewrite ?dist_horz in E2. rewrite ?dist_vert in E3. rewrite ?dist_horz in E4.
    rewrite Rabs_pos_eq in E1 by lra. rewrite Rabs_pos_eq in E2 by lra.
    rewrite (Rabs_left1 (- (h / 2) - h / 2)) in E3 by lra. rewrite (Rabs_left1 (- (w / 2) - w / 2)) in E4 by lra.
    unfold area in *; cbn [fst snd] in *. split; split; nra.
  - intros [[H1 H2] [H3 H4]] p q He. apply edges4 in He.
    destruct He as [[-> ->] | [[-> ->] | [[-> ->] | [-> ->]]]]; rewrite HA, dist_turned;
      first [rewrite dist_vert | rewrite dist_horz]; unfold area; cbn [fst snd].
    + rewrite Rabs_pos_eq by lra. nra.
    + rewrite Rabs_pos_eq by lra. nra.
    + rewrite Rabs_left1 by lra. nra.
    + rewrite Rabs_left1 by lra. nra.
Qed.

(* regular polygons *)
Lemma face_period : forall n l, (0 < n)%nat -> (l < n)%nat ->
  face (2 * PI / INR n) ((l + 1) mod n) = face (2 * PI / INR n) (l + 1).
Proof.
  intros n l Hn Hl. destruct (Nat.eq_dec (l + 1) n) as [E | E].
  - rewrite E, Nat.mod_same by lia. unfold face.
    replace (INR n * (2 * PI / INR n)) with (0 + 2 * PI) by (field; apply not_0_INR; lia).
    simpl (INR 0). rewrite Rmult_0_l. rewrite <- (sin_period 0 1), <- (cos_period 0 1). simpl (INR 1).
    replace (0 + 2 * 1 * PI) with (0 + 2 * PI) by ring. reflexivity.
  - rewrite Nat.mod_small by lia. reflexivity.
Qed.
Lemma solve2_unique : forall a0 a1 b0 b1 x, fst a0 * snd a1 - snd a0 * fst a1 <> 0 ->
  fst a0 * fst x + snd a0 * snd x = b0 -> fst a1 * fst x + snd a1 * snd x = b1 -> solve2 a0 a1 b0 b1 = x.
Proof.
  intros [a b] [c d] b0 b1 [x y] HD H0 H1; unfold solve2; cbn [fst snd] in *. subst.
  f_equal; field; auto.
Qed.
Lemma regular_vertex : forall r n l, (3 <= n)%nat -> (l < n)%nat ->
  nth_error (regular_vertices r n) l =
  Some (r * sin (INR (2 * l + 1) * PI / INR n), r * cos (INR (2 * l + 1) * PI / INR n)).
Proof.
  intros r n l Hn Hl. unfold regular_vertices.
  assert (HE : nth_error (seq 0 n) l = Some l).
  { rewrite (nth_error_nth' (seq 0 n) 0%nat) by (rewrite seq_length; auto). rewrite seq_nth by auto. reflexivity. }
  rewrite (map_nth_error _ _ _ HE). f_equal. unfold face_vertex.
  rewrite face_period by lia.
  assert (Hi : INR n <> 0) by (apply not_0_INR; lia).
  set (A := INR l * (2 * PI / INR n)). set (D := PI / INR n).
  assert (HA' : INR (l + 1) * (2 * PI / INR n) = A + 2 * D)
    by (unfold A, D; rewrite plus_INR; simpl (INR 1); field; auto).
  assert (HB : INR (2 * l + 1) * PI / INR n = A + D)
    by (unfold A, D; rewrite plus_INR, mult_INR; simpl (INR 1); simpl (INR 2); field; auto).
  assert (Hpi : 0 < PI) by apply PI_RGT_0.
  assert (Hn3 : 3 <= INR n) by (replace 3 with (INR 3) by (simpl; ring); apply le_INR; auto).
  assert (HD : 0 < 2 * D < PI).
  { unfold D. split; [apply Rmult_lt_0_compat; [lra |]; apply Rdiv_lt_0_compat; lra |].
    apply (Rmult_lt_reg_r (INR n)); [lra |].
    replace (2 * (PI / INR n) * INR n) with (2 * PI) by (field; auto). nra. }
  unfold face. fold A. rewrite HA', HB. apply solve2_unique; cbn [fst snd].
  - replace (sin A * cos (A + 2 * D) - cos A * sin (A + 2 * D)) with (sin (A - (A + 2 * D))) by (rewrite sin_minus; ring).
    replace (A - (A + 2 * D)) with (- (2 * D)) by ring. rewrite sin_neg.
    assert (0 < sin (2 * D)) by (apply sin_gt_0; lra). lra.
  - transitivity (r * cos (A + D - A)); [rewrite cos_minus; ring | f_equal; f_equal; ring].
  - transitivity (r * cos (A + 2 * D - (A + D))); [rewrite (cos_minus (A + 2 * D)); ring | f_equal; f_equal; ring].
Qed.
Lemma regular_length : forall r n, length (regular_vertices r n) = n.
Proof. intros; unfold regular_vertices; rewrite map_length, seq_length; auto. Qed.
