(* Obstacles in frames. *)
From Coq Require Import QArith Qabs Qminmax Qround ZArith List Bool Lia Lqa.
From Verif Require Import Frame_Model Frame_Spec.
Import ListNotations.
Open Scope bool_scope.
Open Scope Q_scope.

Lemma leb_iff x y : leb x y = true <-> x <= y.
Proof. apply Qle_bool_iff. Qed.
Lemma leb_false x y : leb x y = false <-> y < x.
Proof.
  split; intro H.
  - apply Qnot_le_lt; intro C; apply leb_iff in C; congruence.
  - destruct (leb x y) eqn:E; [|reflexivity]. apply leb_iff in E. lra.
Qed.
Lemma ltb_iff x y : ltb x y = true <-> x < y.
Proof.
  unfold ltb. rewrite negb_true_iff. apply leb_false.
Qed.
Lemma ltb_false x y : ltb x y = false <-> y <= x.
Proof. unfold ltb. rewrite negb_false_iff. apply leb_iff. Qed.
Lemma eqb_iff x y : eqb x y = true <-> x == y.
Proof. apply Qeq_bool_iff. Qed.
Lemma eqb_false x y : eqb x y = false <-> ~ x == y.
Proof. rewrite <- eqb_iff. symmetry. apply not_true_iff_false. Qed.
Lemma pt_eqb_iff p q : pt_eqb p q = true <-> pt_eq p q.
Proof. unfold pt_eqb, pt_eq. rewrite andb_true_iff, !eqb_iff. tauto. Qed.

Lemma bind_ok {A B} (x : res A) (f : A -> res B) b :
  bind x f = Ok b -> exists a, x = Ok a /\ f a = Ok b.
Proof. destruct x; cbn; intro H; [eauto | discriminate]. Qed.

Ltac qb := repeat (rewrite ?andb_true_iff, ?orb_true_iff, ?andb_false_iff, ?orb_false_iff, ?negb_true_iff,
  ?negb_false_iff, ?leb_iff, ?ltb_iff, ?eqb_iff, ?leb_false, ?ltb_false, ?eqb_false).
Ltac qb_in H := repeat (rewrite ?andb_true_iff, ?orb_true_iff, ?andb_false_iff, ?orb_false_iff, ?negb_true_iff,
  ?negb_false_iff, ?leb_iff, ?ltb_iff, ?eqb_iff, ?leb_false, ?ltb_false, ?eqb_false in H).

(* ---- borders ------------------------------------------------------------- *)

Lemma rect_canvas w h c sn : c == 1 -> sn == 0 -> 0 <= w -> 0 <= h ->
  let '((x0, x1), (y0, y1)) := canvas_limits (SRect w h c sn) in
  x0 == - ((1 # 2) * w) /\ x1 == (1 # 2) * w /\ y0 == - ((1 # 2) * h) /\ y1 == (1 # 2) * h.
Proof.
  intros C S W H. cbn [canvas_limits vertices rect_base map rotate fst snd min_list max_list fold_right].
  set (a1 := c * ((1 # 2) * w) - sn * ((1 # 2) * h)). set (a2 := c * ((1 # 2) * w) - sn * - ((1 # 2) * h)).
  set (a3 := c * - ((1 # 2) * w) - sn * - ((1 # 2) * h)). set (a4 := c * - ((1 # 2) * w) - sn * ((1 # 2) * h)).
  set (b1 := sn * ((1 # 2) * w) + c * ((1 # 2) * h)). set (b2 := sn * ((1 # 2) * w) + c * - ((1 # 2) * h)).
  set (b3 := sn * - ((1 # 2) * w) + c * - ((1 # 2) * h)). set (b4 := sn * - ((1 # 2) * w) + c * ((1 # 2) * h)).
  assert (A1 : a1 == (1 # 2) * w) by (unfold a1; rewrite C, S; ring).
  assert (A2 : a2 == (1 # 2) * w) by (unfold a2; rewrite C, S; ring).
  assert (A3 : a3 == - ((1 # 2) * w)) by (unfold a3; rewrite C, S; ring).
  assert (A4 : a4 == - ((1 # 2) * w)) by (unfold a4; rewrite C, S; ring).
  assert (B1 : b1 == (1 # 2) * h) by (unfold b1; rewrite C, S; ring).
  assert (B2 : b2 == - ((1 # 2) * h)) by (unfold b2; rewrite C, S; ring).
  assert (B3 : b3 == - ((1 # 2) * h)) by (unfold b3; rewrite C, S; ring).
  assert (B4 : b4 == (1 # 2) * h) by (unfold b4; rewrite C, S; ring).
  clearbody a1 a2 a3 a4 b1 b2 b3 b4.
  repeat split.
  - destruct (Q.min_spec a4 a1) as [[? E4]|[? E4]]; destruct (Q.min_spec a3 (Qmin a4 a1)) as [[? E3]|[? E3]];
    destruct (Q.min_spec a2 (Qmin a3 (Qmin a4 a1))) as [[? E2]|[? E2]]; lra.
  - destruct (Q.max_spec a4 a1) as [[? E4]|[? E4]]; destruct (Q.max_spec a3 (Qmax a4 a1)) as [[? E3]|[? E3]];
    destruct (Q.max_spec a2 (Qmax a3 (Qmax a4 a1))) as [[? E2]|[? E2]]; lra.
  - destruct (Q.min_spec b4 b1) as [[? E4]|[? E4]]; destruct (Q.min_spec b3 (Qmin b4 b1)) as [[? E3]|[? E3]];
    destruct (Q.min_spec b2 (Qmin b3 (Qmin b4 b1))) as [[? E2]|[? E2]]; lra.
  - destruct (Q.max_spec b4 b1) as [[? E4]|[? E4]]; destruct (Q.max_spec b3 (Qmax b4 b1)) as [[? E3]|[? E3]];
    destruct (Q.max_spec b2 (Qmax b3 (Qmax b4 b1))) as [[? E2]|[? E2]]; lra.
Qed.

(* the rectangle stored in the border is the set of points within the limits *)
Lemma make_border_region xmin ymin xmax ymax p :
  let b := make_border xmin ymin xmax ymax in
  in_rect (b_width b) (b_height b) (b_pos b) p <-> contains (b_lim b) p.
Proof.
  cbv zeta. unfold in_rect, contains, clearance, make_border.
  cbn [b_width b_height b_pos b_lim fst snd xlo ylo xhi yhi].
  rewrite !Qabs_Qle_condition. lra.
Qed.

Lemma room_limits_eq c : 0 <= room_w c -> 0 <= room_h c ->
  lim_eq (room_limits c)
    (Lim (fst (room_pos c) - (1 # 2) * room_w c) (snd (room_pos c) - (1 # 2) * room_h c)
         (fst (room_pos c) + (1 # 2) * room_w c) (snd (room_pos c) + (1 # 2) * room_h c)).
Proof.
  intros W H. unfold room_limits.
  pose proof (rect_canvas (room_w c) (room_h c) 1 0 (Qeq_refl _) (Qeq_refl _) W H) as E.
  destruct (canvas_limits _) as [[x0 x1] [y0 y1]]. unfold lim_eq; cbn. lra.
Qed.

(* ---- stationary obstacles ------------------------------------------------ *)

Lemma is_stationary_iff o : is_stationary o = true <-> never_pushed o.
Proof.
  unfold is_stationary, never_pushed. destruct (o_traj o) as [vs|]; [|tauto].
  rewrite forallb_forall. split; intros H v I.
  - apply pt_eqb_iff, H, I.
  - apply pt_eqb_iff, H, I.
Qed.
Lemma supported_iff s : supported s = true <-> plain s.
Proof. destruct s; cbn; rewrite ?andb_true_iff, ?eqb_iff; intuition discriminate. Qed.

Lemma obs_limits_box o : plain (o_shape o) -> shape_ok (o_shape o) -> lim_eq (obs_limits o) (box o).
Proof.
  unfold obs_limits, box. destruct (o_shape o) as [w h c sn|r|]; intros P K.
  - pose proof (rect_canvas w h c sn (proj1 P) (proj2 P) (proj1 K) (proj2 K)) as E.
    destruct (canvas_limits _) as [[x0 x1] [y0 y1]]. unfold lim_eq; cbn. lra.
  - unfold lim_eq; cbn. lra.
  - destruct P.
Qed.

Lemma overlap_iff l o : plain (o_shape o) -> shape_ok (o_shape o) ->
  overlap l (obs_limits o) = true <-> ~ disjoint l (box o).
Proof.
  intros P K. destruct (obs_limits_box o P K) as (A & B & C & D).
  unfold overlap, disjoint. qb. rewrite A, B, C, D. lra.
Qed.

(* what the function returns, when it returns *)
Lemma stationary_ok l obs r : get_stationary_obstacles l obs = Ok r ->
  r = filter (fun o => is_stationary o && overlap l (obs_limits o)) obs.
Proof.
  revert r; induction obs as [|o obs IH]; cbn; intros r H.
  - congruence.
  - destruct (is_stationary o); cbn; [|apply IH, H].
    destruct (supported _); [|discriminate].
    apply bind_ok in H. destruct H as (a & E & H). rewrite <- (IH _ E).
    destruct (overlap _ _); congruence.
Qed.
Lemma stationary_raises l obs e : get_stationary_obstacles l obs = Err e ->
  e = RuntimeError /\ exists o, In o obs /\ never_pushed o /\ ~ plain (o_shape o).
Proof.
  induction obs as [|o obs IH]; cbn; intro H; [discriminate|].
  destruct (is_stationary o) eqn:S.
  - destruct (supported (o_shape o)) eqn:P.
    + destruct (get_stationary_obstacles l obs); [discriminate|]. cbn in H.
      destruct IH as (A & o' & B & C); [congruence|]. split; [exact A|]. eauto.
    + split; [congruence|]. exists o. apply is_stationary_iff in S.
      split; [now left|]. split; [exact S|]. rewrite <- supported_iff. congruence.
  - destruct (IH H) as (A & o' & B & C). eauto 6.
Qed.
Lemma stationary_defined l obs : (exists r, get_stationary_obstacles l obs = Ok r) <->
  (forall o, In o obs -> never_pushed o -> plain (o_shape o)).
Proof.
  split.
  - intros (r & H). revert r H. induction obs as [|o obs IH]; cbn; intros r H o' I N; [destruct I|].
    destruct (is_stationary o) eqn:S.
    + destruct (supported (o_shape o)) eqn:P; [|discriminate].
      apply bind_ok in H. destruct H as (a & E & H).
      destruct I as [<-|I]; [apply supported_iff, P|]. eapply IH; eauto.
    + destruct I as [<-|I]; [apply is_stationary_iff in N; congruence|]. eapply IH; eauto.
  - intro H. destruct (get_stationary_obstacles l obs) eqn:E; [eauto|].
    apply stationary_raises in E. destruct E as (_ & o & I & N & P). destruct P; eauto.
Qed.

(* an obstacle is found exactly when its bounding box is in contact with the frame *)
Lemma stationary_found l obs r o : all_plain obs -> get_stationary_obstacles l obs = Ok r ->
  In o r <-> In o obs /\ never_pushed o /\ ~ disjoint l (box o).
Proof.
  intros A H. rewrite (stationary_ok _ _ _ H), filter_In, andb_true_iff, is_stationary_iff.
  split; intros (I & N & D); split; try assumption; split; try assumption;
    destruct (A o I N) as (P & K); apply (overlap_iff l o P K); exact D.
Qed.

(* for a rectangle the bounding box is the obstacle itself *)
Lemma touches_rect l o w h cs sn : o_shape o = SRect w h cs sn -> 0 <= w -> 0 <= h -> wf l ->
  touches l o <-> ~ disjoint l (box o).
Proof.
  intros E W H (X & Y). unfold touches, disjoint, occupies, box. rewrite E. cbn [xlo ylo xhi yhi]. split.
  - intros (p & (A & B) & (C & D)) N. apply Qabs_Qle_condition in C, D. lra.
  - intro N.
    exists (Qmax (xlo l) (fst (o_pos o) - (1 # 2) * w), Qmax (ylo l) (snd (o_pos o) - (1 # 2) * h)).
    unfold contains, clearance, in_rect; cbn [fst snd]. rewrite !Qabs_Qle_condition.
    destruct (Q.max_spec (xlo l) (fst (o_pos o) - (1 # 2) * w)) as [[A1 A2]|[A1 A2]];
    destruct (Q.max_spec (ylo l) (snd (o_pos o) - (1 # 2) * h)) as [[B1 B2]|[B1 B2]];
    rewrite !A2, !B2; lra.
Qed.
Lemma sq_nonneg x : 0 <= x * x.
Proof. destruct (Qlt_le_dec x 0); nra. Qed.
(* a disc is never missed *)
Lemma touches_disc l o r : o_shape o = SCirc r -> 0 <= r -> touches l o -> ~ disjoint l (box o).
Proof.
  intros E R. unfold touches, disjoint, occupies, box. rewrite E. cbn [xlo ylo xhi yhi].
  intros (p & (A & B) & C) N. unfold in_disc in C.
  assert (HX : Qabs (fst p - fst (o_pos o)) <= r).
  { apply Qnot_lt_le. intro L.
    assert (r * r < Qabs (fst p - fst (o_pos o)) * Qabs (fst p - fst (o_pos o))) by nra.
    pose proof (sq_nonneg (snd p - snd (o_pos o))).
    assert (Qabs (fst p - fst (o_pos o)) * Qabs (fst p - fst (o_pos o))
      == (fst p - fst (o_pos o)) * (fst p - fst (o_pos o))).
    { rewrite <- Qabs_Qmult. apply Qabs_pos, sq_nonneg. }
    lra. }
  assert (HY : Qabs (snd p - snd (o_pos o)) <= r).
  { apply Qnot_lt_le. intro L.
    assert (r * r < Qabs (snd p - snd (o_pos o)) * Qabs (snd p - snd (o_pos o))) by nra.
    pose proof (sq_nonneg (fst p - fst (o_pos o))).
    assert (Qabs (snd p - snd (o_pos o)) * Qabs (snd p - snd (o_pos o))
      == (snd p - snd (o_pos o)) * (snd p - snd (o_pos o))).
    { rewrite <- Qabs_Qmult. apply Qabs_pos, sq_nonneg. }
    lra. }
  apply Qabs_Qle_condition in HX, HY. lra.
Qed.

Lemma stationary_complete l obs r o : all_plain obs -> wf l -> get_stationary_obstacles l obs = Ok r ->
  In o obs -> never_pushed o -> touches l o -> In o r.
Proof.
  intros A W H I N T. apply (stationary_found l obs r o A H). split; [exact I|]. split; [exact N|].
  destruct (A o I N) as (P & K). destruct (o_shape o) as [w h c sn|rad|] eqn:E.
  - cbn in K. apply (touches_rect l o w h c sn E (proj1 K) (proj2 K) W), T.
  - eapply touches_disc; eauto.
  - destruct P.
Qed.
Lemma stationary_exact_rect l obs r o w h cs sn : all_plain obs -> wf l ->
  get_stationary_obstacles l obs = Ok r -> o_shape o = SRect w h cs sn ->
  In o r <-> In o obs /\ never_pushed o /\ touches l o.
Proof.
  intros A W H E. rewrite (stationary_found l obs r o A H).
  split; intros (I & N & T); split; try assumption; split; try assumption;
    destruct (A o I N) as (P & K); rewrite E in K; cbn in K;
    apply (touches_rect l o w h cs sn E (proj1 K) (proj2 K) W), T.
Qed.
Lemma stationary_none l obs : all_plain obs ->
  get_stationary_obstacles l obs = Ok [] <-> free l obs.
Proof.
  intro A. split.
  - intros H o I N. destruct (overlap l (obs_limits o)) eqn:E.
    + exfalso. destruct (A o I N) as (P & K). apply (overlap_iff l o P K) in E.
      apply (stationary_found l obs [] o A H). auto.
    + destruct (A o I N) as (P & K).
      destruct (obs_limits_box o P K) as (X & Y & Z & T).
      unfold overlap in E. unfold disjoint. qb_in E. rewrite X, Y, Z, T in E. lra.
  - intro F. destruct (proj2 (stationary_defined l obs)) as (r & H).
    { intros o I N. apply A; assumption. }
    rewrite H. f_equal. destruct r as [|o r]; [reflexivity|].
    destruct (proj1 (stationary_found l obs (o :: r) o A H) (or_introl eq_refl)) as (I & N & D).
    destruct D. apply F; assumption.
Qed.
(* with all stationary obstacles plain the function never raises *)
Lemma stationary_total l obs : all_plain obs -> exists r, get_stationary_obstacles l obs = Ok r.
Proof. intro A. apply stationary_defined. intros o I N. apply A; assumption. Qed.
Lemma stationary_some l obs o r : all_plain obs -> get_stationary_obstacles l obs = Ok (o :: r) ->
  ~ free l obs.
Proof. intros A H F. apply (stationary_none l obs A) in F. congruence. Qed.

(* ---- moving obstacles ---------------------------------------------------- *)

Lemma in_closed_iff l p : in_closed l p = true <-> contains l p.
Proof. unfold in_closed, contains, clearance. qb. lra. Qed.

Lemma py_round_bounds q : inject_Z (py_round q) <= q + (1 # 2) /\ q - (1 # 2) <= inject_Z (py_round q).
Proof.
  unfold py_round. pose proof (Qfloor_le q) as A. pose proof (Qlt_floor q) as B.
  rewrite inject_Z_plus in B. change (inject_Z 1) with 1 in B.
  set (f := Qfloor q) in *.
  destruct (ltb (q - inject_Z f) (1 # 2)) eqn:E1; qb_in E1; [lra|].
  destruct (ltb (1 # 2) (q - inject_Z f)) eqn:E2; qb_in E2.
  - rewrite inject_Z_plus. change (inject_Z 1) with 1. lra.
  - destruct (Z.even f); [lra|]. rewrite inject_Z_plus. change (inject_Z 1) with 1. lra.
Qed.

Lemma n_samples_bounds time ts : 0 < ts -> 0 <= time ->
  time < inject_Z (n_samples time ts) * ts /\ inject_Z (n_samples time ts) * ts <= time + (3 # 2) * ts.
Proof.
  intros T P. unfold n_samples. destruct (py_round_bounds (time / ts)) as (A & B).
  rewrite inject_Z_plus. change (inject_Z 1) with 1.
  set (k := inject_Z (py_round (time / ts))) in *.
  assert (E : time == time / ts * ts) by (field; lra).
  set (q := time / ts) in *. clearbody k q. split; nra.
Qed.

Lemma moving_iff l p ts time v : 0 < ts -> 0 <= time ->
  point_in_frame_moving l p ts time v = true <->
  exists k : Z, (0 <= k <= n_samples time ts)%Z /\ contains l (at_time p v (inject_Z k * ts)).
Proof.
  intros T P. unfold point_in_frame_moving. rewrite existsb_exists.
  assert (N : (0 <= n_samples time ts)%Z).
  { destruct (n_samples_bounds time ts T P) as (A & _).
    destruct (Z.leb_spec 0 (n_samples time ts)) as [L|L]; [exact L|].
    assert (inject_Z (n_samples time ts) <= 0) by (change 0 with (inject_Z 0); rewrite <- Zle_Qle; lia). nra. }
  split.
  - intros (k & I & H). apply in_seq in I. apply in_closed_iff in H.
    exists (Z.of_nat k). split; [lia|]. exact H.
  - intros (k & K & H). exists (Z.to_nat k). split.
    + apply in_seq. lia.
    + apply in_closed_iff. unfold moved. rewrite Z2Nat.id by lia. exact H.
Qed.

(* a point that is in the frame for at least one sample time is seen *)
Lemma moving_seen l p ts time v t0 : 0 < ts -> 0 <= t0 -> t0 + ts <= time ->
  contains l (at_time p v t0) -> contains l (at_time p v (t0 + ts)) ->
  point_in_frame_moving l p ts time v = true.
Proof.
  intros T A B H1 H2. apply moving_iff; [exact T|lra|].
  exists (Qceiling (t0 / ts)).
  assert (E : t0 == t0 / ts * ts) by (field; lra).
  pose proof (Qle_ceiling (t0 / ts)) as C. pose proof (Qceiling_lt (t0 / ts)) as D.
  assert (D' : inject_Z (Qceiling (t0 / ts)) < t0 / ts + 1).
  { unfold Z.sub in D. rewrite inject_Z_plus in D. change (inject_Z (- (1))) with (- (1)) in D. lra. }
  destruct (n_samples_bounds time ts T) as (F & _); [lra|].
  set (k := Qceiling (t0 / ts)) in *. set (q := t0 / ts) in *.
  assert (K0 : t0 <= inject_Z k * ts) by (rewrite E at 1; nra).
  assert (K1 : inject_Z k * ts <= t0 + ts) by (rewrite E at 1; nra).
  split.
  - split.
    + assert (0 <= inject_Z k) by nra. change 0 with (inject_Z 0) in H. rewrite <- Zle_Qle in H. exact H.
    + assert (inject_Z k < inject_Z (n_samples time ts)) by nra. rewrite <- Zlt_Qlt in H. lia.
  - unfold contains, clearance, at_time in *. cbn [fst snd] in *.
    set (s := inject_Z k * ts) in *. clearbody s.
    destruct H1 as ((a1 & a2) & a3 & a4). destruct H2 as ((b1 & b2) & b3 & b4).
    assert (X : forall u, (fst p + s * u - (fst p + t0 * u)) * ts == (s - t0) * (fst p + (t0 + ts) * u - (fst p + t0 * u))) by (intros; ring).
    repeat split; apply Qnot_lt_le; intro L.
    + destruct (Qlt_le_dec 0 (fst v)); nra.
    + destruct (Qlt_le_dec 0 (fst v)); nra.
    + destruct (Qlt_le_dec 0 (snd v)); nra.
    + destruct (Qlt_le_dec 0 (snd v)); nra.
Qed.
