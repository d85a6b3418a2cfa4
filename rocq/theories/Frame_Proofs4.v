(* Making frames: shifted frames, corridor base frames, L-shapes. *)
From Coq Require Import QArith Qabs Qminmax Qround ZArith List Bool Lia Lqa.
From Verif Require Import Frame_Model Frame_Spec Frame_Proofs Frame_Proofs2 Frame_Proofs3.
Import ListNotations.
Open Scope bool_scope.
Open Scope Q_scope.

Lemma in_frame_iff l p : point_in_frame l p 0 = true <-> interior l p.
Proof. unfold point_in_frame, interior. qb. lra. Qed.
Lemma in_frame_margin l p d : point_in_frame l p d = true <->
  xlo l + d < fst p < xhi l - d /\ ylo l + d < snd p < yhi l - d.
Proof. unfold point_in_frame. qb. lra. Qed.

(* ---- move_frame ---------------------------------------------------------- *)

Lemma clip_low_spec x lo : (x < lo /\ clip_low x lo = lo) \/ (lo <= x /\ clip_low x lo = x).
Proof. unfold clip_low. destruct (ltb x lo) eqn:E; qb_in E; auto. Qed.
Lemma clip_high_spec x hi : (hi < x /\ clip_high x hi = hi) \/ (x <= hi /\ clip_high x hi = x).
Proof. unfold clip_high. destruct (ltb hi x) eqn:E; qb_in E; auto. Qed.

Lemma sides_sum c d : fst (sides c d) + snd (sides c d) == frame_size c.
Proof.
  unfold sides. destruct (ltb _ (Qabs d)); [destruct (ltb 0 d)|]; cbn [fst snd]; ring.
Qed.
Lemma sides_nonneg c d : 0 <= frame_size c -> 0 <= move_limit c <= frame_size c * (1 # 2) -> 0 <= veh_size c * margin c ->
  0 <= fst (sides c d) /\ 0 <= snd (sides c d).
Proof.
  intros F M V. unfold sides. destruct (ltb _ (Qabs d)) eqn:E; qb_in E; [|cbn [fst snd]; lra].
  set (mv := Qmin _ _).
  assert (0 <= mv <= move_limit c).
  { unfold mv. destruct (Q.min_spec (move_limit c) (Qabs d - frame_size c * (1 # 2) + veh_size c * margin c)) as [(A & B)|(A & B)]; rewrite B; lra. }
  destruct (ltb 0 d); cbn [fst snd]; lra.
Qed.

(* every side respects the room, whatever the arguments *)
Lemma move_frame_room c start dx dy : let l := move_frame c start dx dy in
  xlo (room_limits c) <= xlo l /\ ylo (room_limits c) <= ylo l /\
  xhi l <= xhi (room_limits c) /\ yhi l <= yhi (room_limits c).
Proof.
  cbv zeta. unfold move_frame. destruct (sides c dx) as [x0 x1], (sides c dy) as [y0 y1].
  set (r := room_limits c). cbn [xlo ylo xhi yhi].
  destruct (clip_low_spec (fst start - x0) (xlo r)) as [(A1 & A2)|(A1 & A2)];
  destruct (clip_low_spec (snd start - y0) (ylo r)) as [(B1 & B2)|(B1 & B2)];
  destruct (clip_high_spec (fst start + x1) (xhi r)) as [(C1 & C2)|(C1 & C2)];
  destruct (clip_high_spec (snd start + y1) (yhi r)) as [(D1 & D2)|(D1 & D2)];
  rewrite A2, B2, C2, D2; lra.
Qed.
Lemma move_frame_start c start dx dy :
  0 <= frame_size c -> 0 <= move_limit c <= frame_size c * (1 # 2) -> 0 <= veh_size c * margin c ->
  contains (room_limits c) start -> contains (move_frame c start dx dy) start.
Proof.
  intros F M V ((R1 & R2) & R3 & R4). unfold move_frame.
  pose proof (sides_nonneg c dx F M V) as (X0 & X1). pose proof (sides_nonneg c dy F M V) as (Y0 & Y1).
  destruct (sides c dx) as [x0 x1], (sides c dy) as [y0 y1]. cbn [fst snd] in *.
  unfold contains, clearance. set (r := room_limits c) in *. cbn [xlo ylo xhi yhi].
  destruct (clip_low_spec (fst start - x0) (xlo r)) as [(A1 & A2)|(A1 & A2)];
  destruct (clip_low_spec (snd start - y0) (ylo r)) as [(B1 & B2)|(B1 & B2)];
  destruct (clip_high_spec (fst start + x1) (xhi r)) as [(C1 & C2)|(C1 & C2)];
  destruct (clip_high_spec (snd start + y1) (yhi r)) as [(D1 & D2)|(D1 & D2)];
  rewrite A2, B2, C2, D2; lra.
Qed.
(* never larger than the frame size *)
Lemma move_frame_size c start dx dy : let l := move_frame c start dx dy in
  xhi l - xlo l <= frame_size c /\ yhi l - ylo l <= frame_size c.
Proof.
  cbv zeta. unfold move_frame. pose proof (sides_sum c dx) as SX. pose proof (sides_sum c dy) as SY.
  destruct (sides c dx) as [x0 x1], (sides c dy) as [y0 y1]. cbn [fst snd] in *.
  set (r := room_limits c). cbn [xlo ylo xhi yhi].
  destruct (clip_low_spec (fst start - x0) (xlo r)) as [(A1 & A2)|(A1 & A2)];
  destruct (clip_low_spec (snd start - y0) (ylo r)) as [(B1 & B2)|(B1 & B2)];
  destruct (clip_high_spec (fst start + x1) (xhi r)) as [(C1 & C2)|(C1 & C2)];
  destruct (clip_high_spec (snd start + y1) (yhi r)) as [(D1 & D2)|(D1 & D2)];
  rewrite A2, B2, C2, D2; lra.
Qed.

(* ---- closest waypoint ---------------------------------------------------- *)

Lemma closest_from_spec pos ws i bd bi :
  let r := closest_from pos ws i bd bi in
  (r = bi /\ forall w, In w ws -> bd <= sq_dist w pos) \/
  (exists pre w post, ws = pre ++ w :: post /\ r = (i + length pre)%nat /\ sq_dist w pos < bd /\
    (forall q, In q pre -> sq_dist w pos < sq_dist q pos) /\ (forall q, In q post -> sq_dist w pos <= sq_dist q pos)).
Proof.
  cbv zeta. revert i bd bi. induction ws as [|w ws IH]; cbn [closest_from]; intros i bd bi.
  - left. split; [reflexivity|]. intros w [].
  - destruct (ltb (sq_dist w pos) bd) eqn:E; qb_in E.
    + destruct (IH (S i) (sq_dist w pos) i) as [(R & A)|(pre & v & post & -> & R & L & A & B)].
      * right. exists [], w, ws. split; [reflexivity|]. split; [cbn; lia|]. split; [exact E|].
        split; [intros q []|exact A].
      * right. exists (w :: pre), v, post. split; [reflexivity|]. split; [cbn; lia|]. split; [lra|].
        split; [|exact B]. intros q [<-|I]; [exact L|apply A, I].
    + destruct (IH (S i) bd bi) as [(R & A)|(pre & v & post & -> & R & L & A & B)].
      * left. split; [exact R|]. intros v [<-|I]; [lra|apply A, I].
      * right. exists (w :: pre), v, post. split; [reflexivity|]. split; [cbn; lia|]. split; [exact L|].
        split; [|exact B]. intros q [<-|I]; [lra|apply A, I].
Qed.

Lemma find_closest_ok c pos ws i : find_closest_waypoint c pos ws = Ok i ->
  (i < length ws)%nat.
Proof.
  unfold find_closest_waypoint. destruct ws as [|w ws]; [discriminate|]. intro H.
  set (l := w :: ws) in *. assert (Hi : i = closest_from pos l 0 (Qmax (room_w c) (room_h c) * Qmax (room_w c) (room_h c)) 0) by congruence.
  clear H. subst i. destruct (closest_from_spec pos l 0 (Qmax (room_w c) (room_h c) * Qmax (room_w c) (room_h c)) 0)
    as [(R & _)|(pre & v & post & E & R & _)]; rewrite R.
  - unfold l. cbn. lia.
  - rewrite E, app_length. cbn. lia.
Qed.
Lemma find_closest_best c pos ws i v : find_closest_waypoint c pos ws = Ok i ->
  In v ws -> sq_dist v pos < Qmax (room_w c) (room_h c) * Qmax (room_w c) (room_h c) ->
  forall w d, In w ws -> sq_dist (nth i ws d) pos <= sq_dist w pos.
Proof.
  unfold find_closest_waypoint. destruct ws as [|w0 ws]; [discriminate|]. intros H I L w d J.
  set (l := w0 :: ws) in *. assert (Hi : i = closest_from pos l 0 (Qmax (room_w c) (room_h c) * Qmax (room_w c) (room_h c)) 0) by congruence.
  clear H. subst i.
  destruct (closest_from_spec pos l 0 (Qmax (room_w c) (room_h c) * Qmax (room_w c) (room_h c)) 0)
    as [(R & A)|(pre & u & post & E & R & _ & A & B)].
  - specialize (A v I). lra.
  - rewrite R, E. cbn [Nat.add]. rewrite app_nth2, Nat.sub_diag by lia. cbn [nth].
    rewrite E in J. apply in_app_or in J. destruct J as [J|[->|J]]; [specialize (A w J); lra|lra|apply B, J].
Qed.

(* ---- corridor base frame ------------------------------------------------- *)

Lemma base_box_interior c start : 0 < veh_size c * margin c -> interior (base_box c start) start.
Proof. intro V. unfold interior, base_box; cbn. lra. Qed.

Lemma update_interior c l prev p : 0 < veh_size c * margin c -> interior l prev ->
  interior (update_with_waypoint c l prev p) p.
Proof.
  intros V ((A & B) & C & D). unfold update_with_waypoint. set (vm := veh_size c * margin c) in *. clearbody vm.
  destruct (ltb (fst prev) (fst p)) eqn:E1; [|destruct (ltb (fst p) (fst prev)) eqn:E2];
  (destruct (ltb (snd prev) (snd p)) eqn:E3; [|destruct (ltb (snd p) (snd prev)) eqn:E4]);
  unfold interior; cbn [xlo ylo xhi yhi];
  repeat match goal with H : ltb _ _ = _ |- _ => qb_in H end; lra.
Qed.
(* sides that move, move to the margin around the new waypoint *)
Lemma update_covers c l prev p : 0 <= veh_size c * margin c -> clearance l (veh_size c * margin c) prev ->
  clearance (update_with_waypoint c l prev p) (veh_size c * margin c) p.
Proof.
  intros V ((A & B) & C & D). unfold update_with_waypoint. set (vm := veh_size c * margin c) in *. clearbody vm.
  destruct (ltb (fst prev) (fst p)) eqn:E1; [|destruct (ltb (fst p) (fst prev)) eqn:E2];
  (destruct (ltb (snd prev) (snd p)) eqn:E3; [|destruct (ltb (snd p) (snd prev)) eqn:E4]);
  unfold clearance; cbn [xlo ylo xhi yhi];
  repeat match goal with H : ltb _ _ = _ |- _ => qb_in H end; lra.
Qed.

Lemma corridor_scan_ok c start ws l inside l' ws' : all_plain (env_obs c) -> 0 < veh_size c * margin c ->
  free l (env_obs c) -> interior l (last inside start) ->
  corridor_scan c start ws l inside = Ok (l', ws') ->
  free l' (env_obs c) /\ interior l' (last ws' start) /\ exists n, ws' = inside ++ firstn n ws.
Proof.
  intros P V. revert l inside. induction ws as [|p ws IH]; cbn [corridor_scan]; intros l inside F I H.
  - injection H as <- <-. split; [exact F|]. split; [exact I|]. exists O. cbn. now rewrite app_nil_r.
  - destruct (point_in_frame l p 0) eqn:E.
    + apply IH in H; [|exact F|rewrite last_last; apply in_frame_iff, E].
      destruct H as (A & B & n & ->). split; [exact A|]. split; [exact B|]. exists (S n).
      cbn. now rewrite <- app_assoc.
    + apply bind_ok in H. destruct H as (st & S & H). destruct st as [|o st]; cbn [is_nil] in H.
      * apply IH in H; [|apply (stationary_none _ _ P), S|rewrite last_last; apply update_interior; assumption].
        destruct H as (A & B & n & ->). split; [exact A|]. split; [exact B|]. exists (Datatypes.S n).
        cbn. now rewrite <- app_assoc.
      * injection H as <- <-. split; [exact F|]. split; [exact I|]. exists O. cbn. now rewrite app_nil_r.
Qed.

Lemma last_skipn {A} (l : list A) i d : (i < length l)%nat -> last (skipn i l) d = last l d.
Proof.
  revert i. induction l as [|x l IH]; intros i H; [cbn in H; lia|].
  destruct i as [|i]; [reflexivity|]. cbn [skipn]. cbn [length] in H.
  rewrite IH by lia. destruct l; [cbn in H; lia|reflexivity].
Qed.
Lemma last_nonnil {A} (l : list A) d d' : l <> [] -> last l d = last l d'.
Proof.
  induction l as [|x l IH]; [congruence|]. intros _. destruct l as [|y l]; [reflexivity|].
  change (last (y :: l) d = last (y :: l) d'). apply IH. discriminate.
Qed.

Lemma corridor_base_ok c start path l ws : all_plain (env_obs c) -> 0 < veh_size c * margin c ->
  free (base_box c start) (env_obs c) -> corridor_base c start path = Ok (l, ws) ->
  free l (env_obs c) /\ interior l (last ws (0, 0)) /\ ws <> [] /\
  exists i n, find_closest_waypoint c start path = Ok i /\ ws = firstn n (skipn i path).
Proof.
  intros P V F H. unfold corridor_base in H. apply bind_ok in H. destruct H as (i & FC & H).
  pose proof (find_closest_ok _ _ _ _ FC) as IL.
  apply bind_ok in H. destruct H as ([l0 ws0] & H & K). cbn [snd] in K.
  assert (Q0 : ws0 <> [] /\ l0 = l /\ ws0 = ws).
  { destruct ws0; [discriminate|]. cbn [is_nil] in K. split; [discriminate|]. split; congruence. }
  destruct Q0 as (NN & -> & ->). clear K.
  assert (G : free l (env_obs c) /\ interior l (last ws (0, 0)) /\ exists n, ws = firstn n (skipn i path)).
  { destruct (point_in_frame (base_box c start) (last path (0, 0)) 0) eqn:E.
    - injection H as <- <-. split; [exact F|].
      split; [|exists (length (skipn i path)); now rewrite firstn_all].
      rewrite last_skipn by exact IL. apply in_frame_iff, E.
    - apply bind_ok in H. destruct H as (st & S & H). destruct st as [|o st]; cbn [is_nil] in H.
      + injection H as <- <-. split; [apply (stationary_none _ _ P), S|].
        split; [|exists (length (skipn i path)); now rewrite firstn_all].
        rewrite last_skipn by exact IL. apply update_interior; [exact V|apply base_box_interior, V].
      + apply corridor_scan_ok in H; [|exact P|exact V|exact F|cbn [last]; apply base_box_interior, V].
        destruct H as (A & B & n & C). split; [exact A|].
        split; [|exists n; exact C].
        rewrite (last_nonnil _ _ start) by exact NN. exact B. }
  destruct G as (G1 & G2 & n & G3). split; [exact G1|]. split; [exact G2|]. split; [exact NN|].
  exists i, n. split; [exact FC|exact G3].
Qed.

(* ---- waypoints after scaling --------------------------------------------- *)

Lemma extend_ok l ws acc : exists more, extend_waypoints l ws acc = acc ++ more /\
  (forall p, In p more -> interior l p /\ In p ws).
Proof.
  revert acc. induction ws as [|p ws IH]; cbn; intro acc.
  - exists []. rewrite app_nil_r. split; [reflexivity|]. intros p [].
  - destruct (point_in_frame l p 0) eqn:E.
    + destruct (IH (if existsb (pt_eqb p) acc then acc else acc ++ [p])) as (m & -> & A).
      destruct (existsb _ acc).
      * exists m. split; [reflexivity|]. intros q I. destruct (A q I). auto.
      * exists (p :: m). split; [rewrite <- app_assoc; reflexivity|].
        intros q [<-|I]; [split; [apply in_frame_iff, E|now left]|]. destruct (A q I). auto.
    + exists []. rewrite app_nil_r. split; [reflexivity|]. intros q [].
Qed.

Lemma interior_within a b p : within a b -> interior a p -> interior b p.
Proof. unfold within, interior. lra. Qed.

(* ---- the whole corridor frame -------------------------------------------- *)

Lemma corridor_frame_ok c fuel start path f : all_plain (env_obs c) -> 0 < veh_size c * margin c -> 0 < step_size c ->
  free (base_box c start) (env_obs c) ->
  (forall l ws, corridor_base c start path = Ok (l, ws) -> within l (room_limits c)) ->
  corridor_frame c fuel start path = Ok f ->
  let l := b_lim (f_border f) in let r := room_limits c in
  xlo r <= xlo l /\ xhi l <= xhi r /\ yhi l <= yhi r /\ ylo r - step_size c <= ylo l /\
  (f_stationary f = [] <-> ylo r <= ylo l).
Proof.
  intros P V ST F HR H. cbv zeta. unfold corridor_frame in H.
  apply bind_ok in H. destruct H as ([l0 ws0] & B & H).
  apply bind_ok in H. destruct H as ([l ws] & S & H).
  apply bind_ok in H. destruct H as (ws' & R & H).
  apply bind_ok in H. destruct H as (st & O & H). injection H as <-. cbn [f_border f_stationary b_lim border_of make_border].
  destruct (corridor_base_ok _ _ _ _ _ P V F B) as (F0 & I0 & _ & _).
  unfold scale_up_frame in S. apply bind_ok in S. destruct S as (b & SB & S).
  apply bind_ok in S. destruct S as (i & _ & S). injection S as <- <-.
  pose proof (scale_up_ok c P fuel l0 b ST (HR _ _ B) SB) as K.
  cbn [xlo ylo xhi yhi].
  destruct K as (K1 & K2 & K3 & K4 & K5 & K6 & _). specialize (K6 F0).
  split; [exact K2|]. split; [exact K3|]. split; [exact K4|]. split; [exact K5|].
  split.
  - intros ->. apply K6. apply (stationary_none _ _ P), O.
  - intro L. apply K6 in L. apply (stationary_none _ _ P) in L. congruence.
Qed.

(* the last waypoint of the scaled frame lies in it *)
Lemma scale_up_frame_last c fuel path l ws l' ws' : all_plain (env_obs c) -> 0 < step_size c ->
  within l (room_limits c) -> ws <> [] -> interior l (last ws (0, 0)) ->
  scale_up_frame c fuel path l ws = Ok (l', ws') ->
  interior l' (last ws' (0, 0)) /\ exists more, ws' = ws ++ more /\ forall p, In p more -> interior l' p /\ In p path.
Proof.
  intros P ST W N I H. unfold scale_up_frame in H. apply bind_ok in H. destruct H as (b & SB & H).
  apply bind_ok in H. destruct H as (i & _ & H). injection H as <- <-.
  destruct (scale_up_ok c P fuel l b ST W SB) as (K & _).
  destruct (extend_ok b (skipn i path) ws) as (more & -> & A). split.
  - destruct more as [|m more]; [rewrite app_nil_r; eapply interior_within; eauto|].
    assert (IL : In (last (ws ++ m :: more) (0, 0)) (m :: more)).
    { rewrite last_nonnil with (d' := m) by (destruct ws; discriminate).
      clear. induction ws as [|w ws IH]; cbn [app].
      - destruct more as [|y more]; [now left|].
        right. change (In (last (y :: more) m) (y :: more)).
        generalize y at 1 2 as z. clear. induction more as [|k more IH]; intro z; [now left|].
        right. apply IH.
      - destruct (ws ++ m :: more) eqn:E; [destruct ws; discriminate|]. exact IH. }
    apply A, IL.
  - exists more. split; [reflexivity|]. intros p J. destruct (A p J) as (A1 & A2). split; [exact A1|].
    rewrite <- (firstn_skipn i path). apply in_or_app. now right.
Qed.

(* ---- L-shapes ------------------------------------------------------------ *)

Lemma accept_ok c new old p r : all_plain (env_obs c) -> accept c new old p = Ok r ->
  r = old \/ (r = new /\ interior new p /\ free new (env_obs c)).
Proof.
  intros P H. unfold accept in H. destruct (point_in_frame new p 0) eqn:E.
  - apply bind_ok in H. destruct H as (st & S & H). destruct st; cbn in H; injection H as <-; [right|now left].
    split; [reflexivity|]. split; [apply in_frame_iff, E|apply (stationary_none _ _ P), S].
  - left. congruence.
Qed.
Lemma put_room d a b r : within a r -> within b r -> within (put d a (side d b)) r.
Proof. destruct d; unfold within; cbn; lra. Qed.

Lemma l_first_ok c ip l1 l2 start r : all_plain (env_obs c) -> l_first c ip l1 l2 start = Ok r ->
  (r = l1 \/ (interior r start /\ free r (env_obs c))) /\
  (forall room, within l1 room -> within l2 room -> within r room).
Proof.
  intros P H. unfold l_first in H.
  apply bind_ok in H. destruct H as (a & A & H).
  apply bind_ok in H. destruct H as (b & B & H).
  apply bind_ok in H. destruct H as (d & D & H).
  set (Good := fun x => (x = l1 \/ (interior x start /\ free x (env_obs c))) /\
    (forall room, within l1 room -> within l2 room -> within x room)).
  change (Good r).
  assert (step : forall x y dd, Good x -> accept c (put dd x (side dd l2)) x start = Ok y -> Good y).
  { intros x y dd (G1 & G2) K. apply accept_ok in K; [|exact P]. destruct K as [->|(-> & K1 & K2)]; [split; assumption|].
    split; [right; auto|]. intros room R1 R2. apply put_room; auto. }
  assert (G0 : Good l1) by (split; [now left|auto]).
  assert (GA : Good a) by (destruct (near (fst ip) (xlo l2)); [apply (step l1 a XPos G0 A)|injection A as <-; exact G0]).
  assert (GB : Good b) by (destruct (near (fst ip) (xhi l2)); [apply (step a b XNeg GA B)|injection B as <-; exact GA]).
  assert (GD : Good d) by (destruct (near (snd ip) (yhi l2)); [apply (step b d YNeg GB D)|injection D as <-; exact GB]).
  destruct (near (snd ip) (ylo l2)); [apply (step d r YPos GD H)|injection H as <-; exact GD].
Qed.
Lemma l_second_ok c ip l1 l2 lastw r : all_plain (env_obs c) -> l_second c ip l1 l2 lastw = Ok r ->
  (r = l2 \/ (interior r lastw /\ free r (env_obs c))) /\
  (forall room, within l1 room -> within l2 room -> within r room).
Proof.
  intros P H. unfold l_second in H.
  apply bind_ok in H. destruct H as (a & A & H).
  apply bind_ok in H. destruct H as (b & B & H).
  apply bind_ok in H. destruct H as (d & D & H).
  set (Good := fun x => (x = l2 \/ (interior x lastw /\ free x (env_obs c))) /\
    (forall room, within l1 room -> within l2 room -> within x room)).
  change (Good r).
  assert (G0 : Good l2) by (split; [now left|auto]).
  assert (step : forall y dd, accept c (put dd l2 (side dd l1)) l2 lastw = Ok y -> Good y).
  { intros y dd K. apply accept_ok in K; [|exact P]. destruct K as [->|(-> & K1 & K2)]; [exact G0|].
    split; [right; auto|]. intros room R1 R2. apply put_room; auto. }
  assert (GA : Good a) by (destruct (near (fst ip) (xlo l1)); [apply (step a XPos A)|injection A as <-; exact G0]).
  assert (GB : Good b) by (destruct (near (fst ip) (xhi l1)); [apply (step b XNeg B)|injection B as <-; exact GA]).
  assert (GD : Good d) by (destruct (near (snd ip) (yhi l1)); [apply (step d YNeg D)|injection D as <-; exact GB]).
  destruct (near (snd ip) (ylo l1)); [apply (step r YPos H)|injection H as <-; exact GD].
Qed.

Lemma l_shape_ok c l1 l2 start w10 w20 w2n r1 r2 : all_plain (env_obs c) ->
  create_l_shape c l1 l2 start w10 w20 w2n = Ok (r1, r2) ->
  (r1 = l1 \/ (interior r1 start /\ free r1 (env_obs c))) /\
  (r2 = l2 \/ (interior r2 w2n /\ free r2 (env_obs c))) /\
  (forall room, within l1 room -> within l2 room -> within r1 room /\ within r2 room).
Proof.
  intros P H. unfold create_l_shape in H.
  apply bind_ok in H. destruct H as (a & A & H). apply bind_ok in H. destruct H as (b & B & H).
  injection H as <- <-.
  assert (GA : (a = l1 \/ (interior a start /\ free a (env_obs c))) /\
    (forall room, within l1 room -> within l2 room -> within a room)).
  { destruct (find_intersection l2 w10 w20); [eapply l_first_ok; eauto|injection A as <-; split; [now left|auto]]. }
  assert (GB : (b = l2 \/ (interior b w2n /\ free b (env_obs c))) /\
    (forall room, within a room -> within l2 room -> within b room)).
  { destruct (find_intersection a w20 w2n); [eapply l_second_ok; eauto|injection B as <-; split; [now left|auto]]. }
  destruct GA as (GA1 & GA2), GB as (GB1 & GB2).
  split; [exact GA1|]. split; [exact GB1|]. intros room R1 R2. split; auto.
Qed.

(* ---- shift frames -------------------------------------------------------- *)

Lemma shift_scan_shape c start goal ws e inside d w e' inside' d' :
  shift_scan c start goal ws e inside d = (w, e', inside', d') ->
  (w <> None -> d' <> None) /\
  (d' = None -> d = None /\ forall p, In p ws -> interior (start_box c start) p) /\
  (forall g, e' = Some g -> e = Some g \/ (In g ws /\ pt_eq g goal)) /\
  (forall p, w = Some p -> In p ws /\ ~ interior (start_box c start) p).
Proof.
  revert e inside d. induction ws as [|p ws IH]; cbn [shift_scan]; intros e inside d H.
  - injection H as <- <- <- <-. split; [congruence|]. split; [intro Z; split; [exact Z|intros q []]|].
    split; [now left|congruence].
  - destruct (point_in_frame (start_box c start) p 0) eqn:E.
    + destruct (IH _ _ _ H) as (A & B & C & D). split; [exact A|]. split; [|split].
      * intro Z. destruct (B Z) as (B1 & B2). split; [exact B1|]. intros q [<-|I]; [apply in_frame_iff, E|auto].
      * intros g G. destruct (C g G) as [G'|(G' & G'')]; [now left|right; split; [now right|exact G'']].
      * intros q Q. destruct (D q Q) as (Q1 & Q2). split; [now right|exact Q2].
    + destruct (ltb _ _ || ltb _ _).
      * injection H as <- <- <- <-. split; [congruence|]. split; [congruence|]. split; [auto|].
        intros q Q. injection Q as <-. split; [now left|]. intro C. apply in_frame_iff in C. congruence.
      * destruct (pt_eqb p goal) eqn:G0.
        -- destruct (IH _ _ _ H) as (A & B & C & D). split; [exact A|]. split; [|split].
           ++ intro Z. destruct (B Z) as (B1 & _). discriminate.
           ++ intros g G. destruct (C g G) as [G'|(G' & G'')].
              ** injection G' as <-. right. split; [now left|apply pt_eqb_iff, G0].
              ** right. split; [now right|exact G''].
           ++ intros q Q. destruct (D q Q) as (Q1 & Q2). split; [now right|exact Q2].
        -- destruct (IH _ _ _ H) as (A & B & C & D). split; [exact A|]. split; [|split].
           ++ intro Z. destruct (B Z) as (B1 & _). discriminate.
           ++ intros g G. destruct (C g G) as [G'|(G' & G'')]; [now left|right; split; [now right|exact G'']].
           ++ intros q Q. destruct (D q Q) as (Q1 & Q2). split; [now right|exact Q2].
Qed.

Lemma shift_scan_far c start goal ws e inside d p e' inside' d' :
  shift_scan c start goal ws e inside d = (Some p, e', inside', d') ->
  move_limit c + frame_size c * (1 # 2) < Qabs (fst p - fst start) \/
  move_limit c + frame_size c * (1 # 2) < Qabs (snd p - snd start).
Proof.
  revert e inside d. induction ws as [|q ws IH]; cbn [shift_scan]; intros e inside d H; [congruence|].
  destruct (point_in_frame (start_box c start) q 0); [eauto|].
  destruct (ltb (move_limit c + frame_size c * (1 # 2)) (Qabs (fst q - fst start))
            || ltb (move_limit c + frame_size c * (1 # 2)) (Qabs (snd q - snd start))) eqn:T.
  - injection H as <- _ _ _. apply orb_true_iff in T. destruct T as [T|T]; qb_in T; auto.
  - destruct (pt_eqb q goal); eauto.
Qed.

(* with a far waypoint, an endpoint was only found when the goal came earlier *)
Lemma shift_scan_goal c start goal ws e inside d p g inside' d' :
  shift_scan c start goal ws e inside d = (Some p, Some g, inside', d') ->
  exists a b, ws = a ++ p :: b /\ (e = Some g \/ (In g a /\ pt_eq g goal)).
Proof.
  revert e inside d. induction ws as [|q ws IH]; cbn [shift_scan]; intros e inside d H; [congruence|].
  destruct (point_in_frame (start_box c start) q 0).
  - destruct (IH _ _ _ H) as (a & b & -> & [G|(I & G)]); exists (q :: a), b; (split; [reflexivity|]); [now left|].
    right. split; [now right|exact G].
  - destruct (ltb _ _ || ltb _ _).
    + injection H as <- Q <- <-. exists [], ws. split; [reflexivity|]. left. exact Q.
    + destruct (pt_eqb q goal) eqn:G0.
      * destruct (IH _ _ _ H) as (a & b & -> & [G|(I & G)]); exists (q :: a), b; (split; [reflexivity|]); right.
        -- injection G as <-. split; [now left|apply pt_eqb_iff, G0].
        -- split; [now right|exact G].
      * destruct (IH _ _ _ H) as (a & b & -> & [G|(I & G)]); exists (q :: a), b; (split; [reflexivity|]); [now left|].
        right. split; [now right|exact G].
Qed.

(* what a shift frame looks like, when one is made *)
Lemma shift_frame_ok c start path f : shift_frame c start path = Ok f ->
  (forall a g b p, path = a ++ g :: b -> pt_eq g (last path (0, 0)) -> In p b -> interior (start_box c start) p
     \/ (Qabs (fst p - fst start) <= move_limit c + frame_size c * (1 # 2)
         /\ Qabs (snd p - snd start) <= move_limit c + frame_size c * (1 # 2))) ->
  (last (f_waypoints f) None = None /\ f_endpoint f <> None) \/
  (f_endpoint f = None /\ exists g, last (f_waypoints f) None = Some g /\ pt_eq g (last path (0, 0))).
Proof.
  intros H HG. unfold shift_frame in H. apply bind_ok in H. destruct H as (i & FC & H).
  destruct (shift_scan _ _ _ _ _ _ _) as [[[w e] inside] d] eqn:E.
  destruct (shift_scan_shape _ _ _ _ _ _ _ _ _ _ _ E) as (A & B & C & D).
  destruct w as [w|], d as [[dx dy]|]; try discriminate.
  - apply bind_ok in H. destruct H as (ws & R & H). apply bind_ok in H. destruct H as (st & S & H). injection H as <-.
    cbn [f_waypoints f_endpoint]. left. split; [|discriminate]. rewrite last_last.
    destruct e as [g|]; [|reflexivity]. exfalso.
    destruct (shift_scan_goal _ _ _ _ _ _ _ _ _ _ _ E) as (a & b & EQ & [C1|(I & G)]); [discriminate|].
    apply in_split in I. destruct I as (a1 & a2 & ->).
    assert (EP : path = (firstn i path ++ a1) ++ g :: (a2 ++ w :: b)).
    { rewrite <- (firstn_skipn i path) at 1. rewrite EQ, <- !app_assoc. reflexivity. }
    destruct (HG _ _ _ w EP G) as [K|(K1 & K2)]; [apply in_or_app; right; now left| |].
    + apply (proj2 (D w eq_refl)), K.
    + pose proof (shift_scan_far _ _ _ _ _ _ _ _ _ _ _ E). lra.
  - destruct e as [g|]; [|discriminate].
    apply bind_ok in H. destruct H as (st & S & H). injection H as <-. cbn [f_waypoints f_endpoint].
    right. split; [reflexivity|]. exists g. rewrite last_last. split; [reflexivity|].
    destruct (C g eq_refl) as [|(_ & G)]; [discriminate|exact G].
Qed.

Lemma shift_frame_all_inside c start path : path <> [] ->
  (forall p, In p path -> interior (start_box c start) p) ->
  shift_frame c start path = Err UnboundLocalError.
Proof.
  intros N H. unfold shift_frame. destruct path as [|p0 path]; [congruence|].
  unfold find_closest_waypoint. cbn [bind]. set (i := closest_from _ _ _ _ _).
  assert (HI : forall p, In p (skipn i (p0 :: path)) -> interior (start_box c start) p).
  { intros p I. apply H. rewrite <- (firstn_skipn i (p0 :: path)). apply in_or_app. now right. }
  set (goal := last (p0 :: path) (0, 0)). clearbody goal i.
  assert (K : forall ins, exists ins', shift_scan c start goal (skipn i (p0 :: path)) None ins None = (None, None, ins', None)).
  { revert HI. generalize (skipn i (p0 :: path)). induction l as [|q l IH]; cbn [shift_scan]; intros HI ins; [eauto|].
    rewrite (proj2 (in_frame_iff _ _) (HI q (or_introl eq_refl))). apply IH. intros p I. apply HI. now right. }
  destruct (K []) as (ins' & ->). reflexivity.
Qed.
