(* Moving obstacles, and the cases in which frames go wrong. *)
From Coq Require Import QArith Qabs Qminmax Qround ZArith List Bool Lia Lqa.
From Verif Require Import Frame_Model Frame_Spec Frame_Proofs Frame_Proofs2 Frame_Proofs3 Frame_Proofs4 Frame_Proofs5.
Import ListNotations.
Open Scope bool_scope.
Open Scope Q_scope.

Definition same_points (A B : list pt) : Prop :=
  (forall a, In a A -> exists b, In b B /\ pt_eq a b) /\ (forall b, In b B -> exists a, In a A /\ pt_eq a b).

(* ---- moving obstacles ---------------------------------------------------- *)

Definition meets (l : lim) (ts T : Q) (v p : pt) : Prop :=
  exists k : Z, (0 <= k <= n_samples T ts)%Z /\ contains l (at_time p v (inject_Z k * ts)).
Lemma meets_eq l ts T v p q : pt_eq p q -> meets l ts T v p -> meets l ts T v q.
Proof.
  intros (A & B) (k & K & C). exists k. split; [exact K|]. unfold contains, clearance, at_time in *. cbn [fst snd] in *. lra.
Qed.

Lemma enters_iff l ts T o : 0 < ts -> 0 <= T -> plain (o_shape o) ->
  enters l ts T o = true <-> ~ pt_eq (o_vel o) (0, 0) /\ exists c, In c (tracked o) /\ meets l ts T (o_vel o) c.
Proof.
  intros HT T0 P. unfold enters. rewrite andb_true_iff.
  assert (M : is_moving o = true <-> ~ pt_eq (o_vel o) (0, 0)).
  { unfold is_moving. rewrite <- pt_eqb_iff. destruct (pt_eqb (o_vel o) (0, 0)); cbn; split; congruence. }
  assert (K : existsb (fun c => point_in_frame_moving l (checked_vertex o c) ts T (o_vel o)) (obs_checkpoints (o_shape o)) = true
    <-> exists c, In c (obs_checkpoints (o_shape o)) /\ meets l ts T (o_vel o) (checked_vertex o c)).
  { rewrite existsb_exists. split; intros (c & I & E); exists c; (split; [exact I|]).
    - apply moving_iff in E; assumption.
    - apply moving_iff; assumption. }
  rewrite M, K. clear M K.
  assert (G : same_points (map (checked_vertex o) (obs_checkpoints (o_shape o))) (tracked o)).
  { unfold tracked, checked_vertex, obs_checkpoints, box, same_points. unfold plain in P. destruct (o_pos o) as [px py].
    destruct (o_shape o) as [w h cs sn|r|vs cs sn]; [| |contradiction]; cbn [fst snd].
    - destruct P as (P1 & P2). unfold vertices, rect_base, corners. cbn [map xlo ylo xhi yhi].
      assert (R : forall a b, pt_eq (rotate cs sn (rotate cs sn (a, b))) (a, b)).
      { intros a b. unfold rotate, pt_eq. cbn [fst snd]. rewrite P1, P2. split; ring. }
      split.
      + intros c [<-|[<-|[<-|[<-|[]]]]];
        [exists (px + (1 # 2) * w, py + (1 # 2) * h)|exists (px + (1 # 2) * w, py - (1 # 2) * h)|
         exists (px - (1 # 2) * w, py - (1 # 2) * h)|exists (px - (1 # 2) * w, py + (1 # 2) * h)];
        (split; [cbn [In]; tauto|]);
        (match goal with |- pt_eq (fst (rotate cs sn (rotate cs sn (?a, ?b))) + _, _) _ => destruct (R a b) as (R1 & R2) end;
         unfold pt_eq; cbn [fst snd] in *; rewrite R1, R2; split; ring).
      + intros c J. cbn [In] in J.
        assert (W : exists a b, In (a, b) (rect_base w h) /\ c = (px + a, py + b) \/ (exists a b, In (a, b) (rect_base w h) /\ pt_eq c (px + a, py + b))).
        { destruct J as [<-|[<-|[<-|[<-|[]]]]]; exists 0, 0; right.
          - exists (- ((1 # 2) * w)), (- ((1 # 2) * h)). split; [cbn; tauto|]. unfold pt_eq; cbn [fst snd]; split; ring.
          - exists (- ((1 # 2) * w)), ((1 # 2) * h). split; [cbn; tauto|]. unfold pt_eq; cbn [fst snd]; split; ring.
          - exists ((1 # 2) * w), ((1 # 2) * h). split; [cbn; tauto|]. unfold pt_eq; cbn [fst snd]; split; ring.
          - exists ((1 # 2) * w), (- ((1 # 2) * h)). split; [cbn; tauto|]. unfold pt_eq; cbn [fst snd]; split; ring. }
        destruct W as (a0 & b0 & [(I & E)|(a & b & I & E)]).
        * exists (fst (rotate cs sn (rotate cs sn (a0, b0))) + px, snd (rotate cs sn (rotate cs sn (a0, b0))) + py).
          split.
          -- apply (in_map (fun q => (fst (rotate cs sn (rotate cs sn q)) + px, snd (rotate cs sn (rotate cs sn q)) + py))) in I. exact I.
          -- destruct (R a0 b0) as (R1 & R2). rewrite E. unfold pt_eq; cbn [fst snd] in *. rewrite R1, R2. split; ring.
        * exists (fst (rotate cs sn (rotate cs sn (a, b))) + px, snd (rotate cs sn (rotate cs sn (a, b))) + py).
          split.
          -- apply (in_map (fun q => (fst (rotate cs sn (rotate cs sn q)) + px, snd (rotate cs sn (rotate cs sn q)) + py))) in I. exact I.
          -- destruct (R a b) as (R1 & R2), E as (E1 & E2). unfold pt_eq; cbn [fst snd] in *. rewrite R1, R2, E1, E2. split; ring.
    - unfold corners. cbn [map xlo ylo xhi yhi fst snd].
      split; intros c [<-|[<-|[<-|[<-|[<-|[]]]]]];
        [exists (px, py)|exists (px - r, py - r)|exists (px - r, py + r)|exists (px + r, py + r)|exists (px + r, py - r)|
         exists (0 + px, 0 + py)|exists (- r + px, - r + py)|exists (- r + px, r + py)|exists (r + px, r + py)|exists (r + px, - r + py)];
        (split; [cbn [In]; tauto|unfold pt_eq; cbn [fst snd]; split; ring]). }
  destruct G as (G1 & G2). split; intros (M & c & I & E); (split; [exact M|]).
  - destruct (G1 _ (in_map (checked_vertex o) _ _ I)) as (c' & I' & E'). exists c'. split; [exact I'|eapply meets_eq; eauto].
  - destruct (G2 _ I) as (c' & I' & E'). apply in_map_iff in I'. destruct I' as (c0 & <- & I0). exists c0.
    split; [exact I0|]. eapply meets_eq; [|exact E]. destruct E' as (E1 & E2). split; symmetry; assumption.
Qed.

(* the obstacles listed as moving, and what happens to the environment *)
Lemma moving_listed l ts T obs o' : 0 < ts -> 0 <= T -> (forall o, In o obs -> plain (o_shape o)) ->
  In o' (fst (get_moving_obstacles l ts T obs)) <->
  exists o, In o obs /\ o' = set_avoid o /\ ~ pt_eq (o_vel o) (0, 0) /\
    exists c (k : Z), In c (tracked o) /\ (0 <= k <= n_samples T ts)%Z /\ contains l (at_time c (o_vel o) (inject_Z k * ts)).
Proof.
  intros HT T0 P. unfold get_moving_obstacles. cbn [fst]. rewrite in_map_iff. split.
  - intros (o & <- & I). apply filter_In in I. destruct I as (I & E). exists o. split; [exact I|]. split; [reflexivity|].
    apply enters_iff in E; auto. destruct E as (M & c & J & k & K). split; [exact M|]. exists c, k. tauto.
  - intros (o & I & -> & M & c & k & J & K). exists o. split; [reflexivity|]. apply filter_In. split; [exact I|].
    apply enters_iff; auto. split; [exact M|]. exists c. split; [exact J|]. exists k. exact K.
Qed.
(* an obstacle of which a corner or the centre of a disc is in the frame for at
   least one sample time is listed *)
Lemma moving_noticed l ts T obs o c t0 : 0 < ts -> 0 <= t0 -> t0 + ts <= T ->
  (forall o, In o obs -> plain (o_shape o)) -> In o obs -> ~ pt_eq (o_vel o) (0, 0) -> In c (tracked o) ->
  contains l (at_time c (o_vel o) t0) -> contains l (at_time c (o_vel o) (t0 + ts)) ->
  In (set_avoid o) (fst (get_moving_obstacles l ts T obs)).
Proof.
  intros HT H0 H1 P I M J A B. apply moving_listed; [exact HT|lra|exact P|]. exists o. split; [exact I|]. split; [reflexivity|].
  split; [exact M|]. pose proof (moving_seen l c ts T (o_vel o) t0 HT H0 H1 A B) as S.
  apply moving_iff in S; [|exact HT|lra]. destruct S as (k & K). exists c, k. split; [exact J|exact K].
Qed.
Lemma moving_keeps l ts T obs i : length (snd (get_moving_obstacles l ts T obs)) = length obs /\
  forall d, nth i (snd (get_moving_obstacles l ts T obs)) d = nth i obs d
         \/ nth i (snd (get_moving_obstacles l ts T obs)) d = set_avoid (nth i obs d).
Proof.
  unfold get_moving_obstacles. cbn [snd]. split; [apply map_length|]. intro d.
  revert i. induction obs as [|o obs IH]; intros [|i]; cbn; auto. destruct (enters l ts T o); auto.
Qed.

(* ---- where it goes wrong -------------------------------------------------- *)

Definition rect_at (w h : Q) (p : pt) : obstacle := Obs 0 (SRect w h 1 0) None p (0, 0) true.
Definition plain_env (size : Q) (obs : list obstacle) : cfg :=
  Cfg (1 # 2) (11 # 10) size size (0, 0) 4 2 false obs.

Ltac plain_tac :=
  let o := fresh in let I := fresh in intros o I; cbn in I;
  repeat match type of I with _ \/ _ => destruct I as [<-|I] | _ = _ => subst o end; try contradiction;
  try (intros _; split; [split; reflexivity|split; vm_compute; discriminate]).
Ltac run := vm_compute; repeat split; try reflexivity; try discriminate; try lra.

(* scaling up can pass the lower wall and end on an obstacle *)
Definition low_env := plain_env 10 [rect_at 1 (1 # 100) (0, - (498 # 100))].
Lemma overshoot_refuted : exists c fuel path f,
  all_plain (env_obs c) /\ corridor_frame c fuel (0, 0) path = Ok f /\
  ylo (b_lim (f_border f)) < ylo (room_limits c) /\ f_stationary f <> [].
Proof.
  exists low_env, 100%nat, [(0, 0); (2, 0)]. eexists. split; [plain_tac|].
  split; [vm_compute; reflexivity|]. split; [vm_compute; reflexivity|discriminate].
Qed.
Lemma shift_leaves_room_refuted : exists c start path f,
  contains (room_limits c) start /\ shift_frame c start path = Ok f /\
  xhi (room_limits c) < xhi (b_lim (f_border f)).
Proof.
  exists (plain_env 10 []), (2, 0), [(2, 0); (49 # 10, 0)]. eexists. split; [run|].
  split; [vm_compute; reflexivity|]. vm_compute; reflexivity.
Qed.
Lemma base_leaves_room_refuted : exists c start path l ws,
  contains (room_limits c) start /\ corridor_base c start path = Ok (l, ws) /\
  xhi (room_limits c) < xhi l.
Proof.
  exists (plain_env 10 []), (49 # 10, 0), [(49 # 10, 0)]. eexists. eexists. split; [run|].
  split; [vm_compute; reflexivity|]. vm_compute; reflexivity.
Qed.

(* a path that turns back: the frame ends without the vehicle in it *)
Definition back_env := plain_env 100 [rect_at 1 1 (0, 20); rect_at 1 1 (2, 3)].
Lemma start_lost_refuted : exists c fuel start path f,
  all_plain (env_obs c) /\ corridor_frame c fuel start path = Ok f /\ In (Some start) (f_waypoints f) /\
  ~ contains (b_lim (f_border f)) start.
Proof.
  exists back_env, 300%nat, (0, 0), [(0, 0); (10, 0); (5, 5); (0, 30)]. eexists. split; [plain_tac|].
  split; [vm_compute; reflexivity|]. split; [now left|].
  intros ((C & _) & _). cbn in C. revert C. vm_compute. intro C. now apply C.
Qed.
Lemma single_waypoint_refuted : exists c fuel start path,
  all_plain (env_obs c) /\ path <> [] /\ corridor_frame c fuel start path = Err IndexError.
Proof.
  exists (plain_env 100 [rect_at 1 100 (6, 0)]), 300%nat, (0, 0), [(445 # 100, 0)].
  split; [plain_tac|]. split; [discriminate|vm_compute; reflexivity].
Qed.

(* last waypoint on the right side, outside, near a corner *)
Lemma on_side_refuted : exists veh m l p, contains l p /\ fat l /\ 0 < veh /\ 1 <= m /\
  fst p == xhi (reach_move_frame veh m l p).
Proof. exists (1 # 2), (11 # 10), (Lim 0 0 4 4), (4, 2). run. Qed.
Lemma far_outside_refuted : exists veh m l p, fat l /\ 0 < veh /\ 1 <= m /\
  ~ contains (reach_move_frame veh m l p) p.
Proof.
  exists (1 # 2), (11 # 10), (Lim 0 0 4 4), (5, 2). split; [run|]. split; [run|]. split; [run|].
  intros ((_ & C) & _). revert C. vm_compute. intro C. now apply C.
Qed.
Lemma other_side_refuted : exists veh m l p1 p2 q, fat l /\ 0 < veh /\ 1 <= m /\ clearance l (veh * m) p1 /\ contains l p2 /\
  reach_move_point veh m l [p1] p2 = Ok [p1; q] /\ ~ on_segment p1 p2 q.
Proof.
  exists 1, (11 # 10), (Lim 0 0 10 10), (5, 5), (10, 5), (11 # 10, 5).
  split; [run|]. split; [run|]. split; [run|]. split; [run|]. split; [run|]. split; [vm_compute; reflexivity|].
  intros (t & T & E & _). cbn [fst snd] in E. lra.
Qed.
Lemma corner_refuted : exists veh m l p1 p2 q, fat l /\ 0 < veh /\ 1 <= m /\ too_close l veh p1 = false /\ contains l p2 /\
  reach_move_point veh m l [p1] p2 = Ok [p1; q] /\ fst q < xlo l + veh.
Proof.
  exists 1, (11 # 10), (Lim 0 0 10 10), (101 # 100, 101 # 100), (9 # 10, 112 # 100). eexists.
  split; [run|]. split; [run|]. split; [run|]. split; [run|]. split; [run|]. split; vm_compute; reflexivity.
Qed.

(* obstacles that are missed *)
Definition mover (s : shape) (p v : pt) : obstacle := Obs 0 s None p v false.
Lemma disc_corner_refuted : exists l o, plain (o_shape o) /\ shape_ok (o_shape o) /\
  get_stationary_obstacles l [o] = Ok [o] /\ ~ touches l o.
Proof.
  exists (Lim 0 0 1 1), (Obs 0 (SCirc 1) None (- (9 # 10), - (9 # 10)) (0, 0) true).
  split; [exact I|]. split; [run|]. split; [vm_compute; reflexivity|].
  intros ([x y] & ((A & _) & B & _) & D). unfold occupies, in_disc in D. cbn [o_shape o_pos fst snd xlo ylo] in *.
  assert (X : 9 # 10 <= x - - (9 # 10)) by lra. assert (Y : 9 # 10 <= y - - (9 # 10)) by lra.
  set (u := x - - (9 # 10)) in *. set (w := y - - (9 # 10)) in *. clearbody u w. nra.
Qed.
Lemma fast_refuted : exists l o ts T t, 0 < ts /\ 0 <= t <= T /\ plain (o_shape o) /\
  contains l (at_time (o_pos o) (o_vel o) t) /\ fst (get_moving_obstacles l ts T [o]) = [].
Proof.
  exists (Lim 0 0 1 1), (mover (SCirc (1 # 10)) (- (5), 1 # 2) (10, 0)), 1, 10, (11 # 20).
  split; [run|]. split; [run|]. split; [exact I|]. split; [run|vm_compute; reflexivity].
Qed.
Lemma covering_refuted : exists l o ts T, 0 < ts /\ plain (o_shape o) /\ ~ pt_eq (o_vel o) (0, 0) /\
  (forall p, contains l p -> occupies o p) /\ fst (get_moving_obstacles l ts T [o]) = [].
Proof.
  exists (Lim 0 0 1 1), (mover (SRect 10 10 1 0) (0, 0) (1 # 1000, 0)), 1, 10.
  split; [run|]. split; [run|]. split; [intros (A & _); discriminate|]. split; [|vm_compute; reflexivity].
  intros [x y] ((A & B) & C & D). unfold occupies, in_rect. cbn [o_shape o_pos mover fst snd xlo ylo xhi yhi] in *.
  split; apply Qabs_Qle_condition; lra.
Qed.
Lemma rotated_refuted : exists l o v ts T, 0 < ts /\ ~ pt_eq (o_vel o) (0, 0) /\ In v (vertices (o_shape o)) /\
  contains l (fst (o_pos o) + fst v, snd (o_pos o) + snd v) /\ fst (get_moving_obstacles l ts T [o]) = [].
Proof.
  exists (Lim 0 0 1 1), (mover (SRect 4 2 0 1) (1, - (3 # 2)) (0, - (1 # 1000))). eexists. exists 1, 0.
  split; [run|]. split; [intros (_ & A); discriminate|]. split; [left; reflexivity|]. split; [run|vm_compute; reflexivity].
Qed.
(* standing still with a velocity in its simulation data: in neither list *)
Lemma neither_refuted : exists l o ts T, plain (o_shape o) /\ pt_eq (o_vel o) (0, 0) /\ touches l o /\
  get_stationary_obstacles l [o] = Ok [] /\ get_moving_obstacles l ts T [o] = ([], [o]).
Proof.
  exists (Lim 0 0 4 4), (Obs 0 (SRect 1 1 1 0) (Some [(1, 0)]) (2, 2) (0, 0) true), 1, 10.
  split; [run|]. split; [run|]. split; [exists (2, 2); run|]. split; vm_compute; reflexivity.
Qed.
(* moving from the start on without simulation data: in both lists *)
Lemma both_refuted : exists l o ts T, plain (o_shape o) /\ ~ pt_eq (o_vel o) (0, 0) /\
  get_stationary_obstacles l [o] = Ok [o] /\ fst (get_moving_obstacles l ts T [o]) = [set_avoid o].
Proof.
  exists (Lim 0 0 4 4), (Obs 0 (SRect 1 1 1 0) None (2, 2) (1, 0) true), 1, 10.
  split; [run|]. split; [intros (A & _); discriminate|]. split; vm_compute; reflexivity.
Qed.
Lemma avoid_refuted : exists l ts T o, o_avoid o = false /\
  get_moving_obstacles l ts T [o] = ([set_avoid o], [set_avoid o]) /\ o_avoid (set_avoid o) = true.
Proof.
  exists (Lim 0 0 4 4), 1, 10, (mover (SRect 1 1 1 0) (2, 2) (1, 0)).
  split; [reflexivity|]. split; vm_compute; reflexivity.
Qed.

(* shift frames *)
Lemma shift_goal_inside_refuted : exists c start path, path <> [] /\
  contains (room_limits c) start /\ shift_frame c start path = Err TypeError.
Proof.
  exists (plain_env 100 []), (0, 0), [(0, 0); (3, 0); (1, 1)]. split; [discriminate|]. split; [run|vm_compute; reflexivity].
Qed.

(* L-shapes *)
Lemma l_waypoint_refuted : exists c l1 l2 start w10 w1n w20 w2n r1 r2,
  env_obs c = [] /\ interior l1 w1n /\ create_l_shape c l1 l2 start w10 w20 w2n = Ok (r1, r2) /\ ~ contains r1 w1n.
Proof.
  exists (plain_env 100 []), (Lim 0 0 10 2), (Lim 6 0 8 10), (1, 1), (1, 1), (9, 1), (7, 1), (7, 9), (Lim 0 0 8 2), (Lim 6 0 8 10).
  split; [reflexivity|]. split; [run|]. split; [vm_compute; reflexivity|].
  intros ((_ & C) & _). revert C. vm_compute. intro C. now apply C.
Qed.
(* a line through a corner: both changes are made to the first frame, to the
   second frame only the last one *)
Lemma l_corner : exists c l1 l2 p, env_obs c = [] /\ interior l1 p /\
  l_first c (8, 2) l1 l2 p = Ok (Lim (xlo l2) (ylo l2) (xhi l1) (yhi l1)) /\
  l_second c (8, 2) l2 l1 p = Ok (Lim (xlo l1) (ylo l2) (xhi l1) (yhi l1)).
Proof.
  exists (plain_env 100 []), (Lim 6 1 10 10), (Lim 5 0 8 2), (7, 3).
  split; [reflexivity|]. split; [run|]. split; vm_compute; reflexivity.
Qed.
