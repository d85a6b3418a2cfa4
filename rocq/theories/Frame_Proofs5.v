(* Where a segment crosses the border of a frame, frames along staircase paths. *)
From Coq Require Import QArith Qabs Qminmax Qround ZArith List Bool Lia Lqa.
From Verif Require Import Frame_Model Frame_Spec Frame_Proofs Frame_Proofs2 Frame_Proofs3 Frame_Proofs4.
Import ListNotations.
Open Scope bool_scope.
Open Scope Q_scope.

(* ---- intersections ------------------------------------------------------- *)

Definition turn (p q r : pt) : Q :=
  (snd r - snd p) * (fst q - fst p) - (snd q - snd p) * (fst r - fst p).
Lemma ccw_iff p q r : order_is_ccw p q r = true <-> 0 < turn p q r.
Proof. unfold order_is_ccw, turn. qb. lra. Qed.
Lemma ccw_false p q r : order_is_ccw p q r = false <-> turn p q r <= 0.
Proof. unfold order_is_ccw, turn. qb. lra. Qed.

Lemma xor_turn a b : xorb a b = true -> forall u v : Q, (a = true <-> 0 < u) -> (b = true <-> 0 < v) ->
  (0 < u /\ v <= 0) \/ (u <= 0 /\ 0 < v).
Proof.
  destruct a, b; cbn; intros X u v (A1 & A2) (B1 & B2); try discriminate; [left|right].
  - split; [auto|]. apply Qnot_lt_le. intro C. apply B2 in C. discriminate.
  - split; [|auto]. apply Qnot_lt_le. intro C. apply A2 in C. discriminate.
Qed.
Lemma part01 u v : (0 < u /\ v <= 0) \/ (u <= 0 /\ 0 < v) -> 0 <= u / (u - v) <= 1 /\ ~ u - v == 0.
Proof.
  intros [(A & B)|(A & B)].
  - assert (0 < u - v) by lra. split; [|lra]. split.
    + apply Qle_shift_div_l; lra.
    + apply Qle_shift_div_r; lra.
  - assert (E : u / (u - v) == (- u) / (v - u)) by (field; lra). rewrite E.
    split; [|lra]. split.
    + apply Qle_shift_div_l; lra.
    + apply Qle_shift_div_r; lra.
Qed.

Lemma segments_meet p1 p2 p3 p4 : intersect_line_segments p1 p2 p3 p4 = true ->
  exists q, intersect_lines p1 p2 p3 p4 = Some q /\ on_segment p1 p2 q /\ on_segment p3 p4 q.
Proof.
  intro H. unfold intersect_line_segments in H. apply andb_true_iff in H. destruct H as (H1 & H2).
  pose proof (xor_turn _ _ H1 _ _ (ccw_iff _ _ _) (ccw_iff _ _ _)) as A. clear H1.
  pose proof (xor_turn _ _ H2 _ _ (ccw_iff _ _ _) (ccw_iff _ _ _)) as B. clear H2.
  apply part01 in A. apply part01 in B.
  destruct p1 as [x1 y1], p2 as [x2 y2], p3 as [x3 y3], p4 as [x4 y4].
  unfold turn in A, B. cbn [fst snd] in A, B.
  unfold intersect_lines.
  set (den := (x1 - x2) * (y3 - y4) - (y1 - y2) * (x3 - x4)).
  assert (E1 : (y4 - y1) * (x3 - x1) - (y3 - y1) * (x4 - x1) - ((y4 - y2) * (x3 - x2) - (y3 - y2) * (x4 - x2)) == den) by (unfold den; ring).
  assert (E2 : (y3 - y1) * (x2 - x1) - (y2 - y1) * (x3 - x1) - ((y4 - y1) * (x2 - x1) - (y2 - y1) * (x4 - x1)) == - den) by (unfold den; ring).
  assert (ND : ~ den == 0) by (destruct A as (_ & A); lra).
  destruct (eqb den 0) eqn:E; [apply eqb_iff in E; contradiction|]. clear E.
  eexists. split; [reflexivity|].
  destruct A as (A & _), B as (B & _). split.
  - eexists. split; [exact A|]. unfold pt_eq. cbn [fst snd]. unfold den in *. clear E2. split; field; lra.
  - eexists. split; [exact B|]. unfold pt_eq. cbn [fst snd]. unfold den in *. clear E1. split; field; lra.
Qed.

Lemma intersection_ok l p1 p2 q : wf l -> find_intersection l p1 p2 = Some q ->
  on_segment p1 p2 q /\ contains l q /\ (fst q == xlo l \/ fst q == xhi l \/ snd q == ylo l \/ snd q == yhi l).
Proof.
  intros (WX & WY) H. unfold find_intersection in H. destruct l as [x0 y0 x1 y1]. cbn [xlo ylo xhi yhi] in *.
  assert (S : forall a b, intersect_line_segments p1 p2 a b = true -> intersect_lines p1 p2 a b = Some q ->
    on_segment p1 p2 q /\ on_segment a b q).
  { intros a b X Y. apply segments_meet in X. destruct X as (q' & Y' & S1 & S2). rewrite Y in Y'. injection Y' as ->. auto. }
  destruct (intersect_line_segments p1 p2 (x0, y1) (x1, y1)) eqn:T1;
    [|clear T1; destruct (intersect_line_segments p1 p2 (x1, y1) (x1, y0)) eqn:T1;
    [|clear T1; destruct (intersect_line_segments p1 p2 (x1, y0) (x0, y0)) eqn:T1;
    [|clear T1; destruct (intersect_line_segments p1 p2 (x0, y0) (x0, y1)) eqn:T1; [|discriminate]]]];
  (destruct (S _ _ T1 H) as (S1 & t & T & E1 & E2); split; [exact S1|];
   unfold contains, clearance; cbn [fst snd xlo ylo xhi yhi] in *; rewrite E1, E2).
  - assert (0 <= t * (x1 - x0) <= x1 - x0) by nra. lra.
  - assert (0 <= t * (y1 - y0) <= y1 - y0) by nra. lra.
  - assert (0 <= t * (x1 - x0) <= x1 - x0) by nra. lra.
  - assert (0 <= t * (y1 - y0) <= y1 - y0) by nra. lra.
Qed.

(* ---- staircase paths ----------------------------------------------------- *)

(* sides of one direction of the frame, prev: last waypoint in it *)
Definition axis_ok (up : bool) (vm s prev lo hi : Q) : Prop :=
  if up then lo == s - vm /\ s + vm <= hi /\ prev - vm < hi - vm <= prev /\ s <= prev
  else hi == s + vm /\ lo <= s - vm /\ prev <= lo + vm < prev + vm /\ prev <= s.

Lemma interior_grow a b p : interior a p -> within a b -> interior b p.
Proof. unfold interior, within. lra. Qed.

Lemma axis_step up vm s prev lo hi p : 0 < vm -> axis_ok up vm s prev lo hi -> onward up prev p ->
  lo < p < hi -> axis_ok up vm s p lo hi.
Proof. unfold axis_ok, onward. destruct up; lra. Qed.
Lemma axis_update up vm s prev lo hi p : 0 < vm -> axis_ok up vm s prev lo hi -> onward up prev p ->
  let '(lo', hi') := if ltb prev p then (lo, p + vm) else if ltb p prev then (p - vm, hi) else (lo, hi) in
  axis_ok up vm s p lo' hi' /\ lo' <= lo /\ hi <= hi'.
Proof.
  unfold axis_ok, onward. intros V A O.
  destruct (ltb prev p) eqn:E1; [|destruct (ltb p prev) eqn:E2]; qb_in E1; try qb_in E2; destruct up; lra.
Qed.

Lemma staircase_scan c ux uy start ws l inside l' ws' : 0 < veh_size c * margin c ->
  let vm := veh_size c * margin c in
  axis_ok ux vm (fst start) (fst (last inside start)) (xlo l) (xhi l) ->
  axis_ok uy vm (snd start) (snd (last inside start)) (ylo l) (yhi l) ->
  staircase ux uy (last inside start) ws -> (forall p, In p inside -> interior l p) ->
  corridor_scan c start ws l inside = Ok (l', ws') ->
  stays l' start vm ws' /\ within l l'.
Proof.
  intros V vm. revert l inside. induction ws as [|p ws IH]; cbn [corridor_scan staircase]; intros l inside AX AY ST I H.
  - injection H as <- <-. split; [|apply within_refl]. split; [|exact I].
    unfold clearance. revert AX AY. unfold axis_ok. fold vm in V. clearbody vm. destruct ux, uy; intros; lra.
  - destruct ST as (OX & OY & ST). destruct (point_in_frame l p 0) eqn:E.
    + apply in_frame_iff in E. destruct E as (E1 & E2).
      apply IH in H; [exact H|rewrite last_last; eapply axis_step; eauto|rewrite last_last; eapply axis_step; eauto|
        rewrite last_last; exact ST|].
      intros q J. apply in_app_or in J. destruct J as [J|[<-|[]]]; [auto|split; assumption].
    + apply bind_ok in H. destruct H as (st & S & H). destruct st as [|o st]; cbn [is_nil] in H.
      * pose proof (axis_update ux vm _ _ _ _ (fst p) V AX OX) as UX.
        pose proof (axis_update uy vm _ _ _ _ (snd p) V AY OY) as UY.
        set (l1 := update_with_waypoint c l (last inside start) p) in *.
        assert (G : axis_ok ux vm (fst start) (fst p) (xlo l1) (xhi l1) /\ axis_ok uy vm (snd start) (snd p) (ylo l1) (yhi l1)
           /\ within l l1).
        { unfold l1, update_with_waypoint. fold vm.
          destruct (if ltb (fst (last inside start)) (fst p) then _ else _) as [x0 x1].
          destruct (if ltb (snd (last inside start)) (snd p) then _ else _) as [y0 y1].
          unfold within. cbn [xlo ylo xhi yhi]. destruct UX as (UX & ? & ?), UY as (UY & ? & ?).
          split; [exact UX|]. split; [exact UY|]. auto. }
        destruct G as (G1 & G2 & G3).
        apply IH in H; [|rewrite last_last; exact G1|rewrite last_last; exact G2|rewrite last_last; exact ST|].
        -- destruct H as (H1 & H2). split; [exact H1|]. eapply within_trans; eassumption.
        -- intros q J. apply in_app_or in J. destruct J as [J|[<-|[]]]; [eapply interior_grow; eauto|].
           change (interior l1 p). unfold interior. revert G1 G2. unfold axis_ok. fold vm in V. clear -V. clearbody l1 vm. destruct ux, uy; intros; lra.
      * injection H as <- <-. split; [|apply within_refl]. split; [|exact I].
        unfold clearance. revert AX AY. unfold axis_ok. fold vm in V. clearbody vm. destruct ux, uy; intros; lra.
Qed.

(* a path that starts at the vehicle and never turns back *)
Lemma staircase_frame c ux uy start path l ws : 0 < veh_size c * margin c ->
  staircase ux uy start path ->
  corridor_base c start path = Ok (l, ws) -> stays l start (veh_size c * margin c) ws.
Proof.
  intros V ST H. set (vm := veh_size c * margin c) in *. unfold corridor_base in H.
  apply bind_ok in H. destruct H as (i & FC & H). pose proof (find_closest_ok _ _ _ _ FC) as IL.
  apply bind_ok in H. destruct H as ([l0 ws0] & H & K). cbn [snd] in K.
  assert (Q0 : l0 = l /\ ws0 = ws) by (destruct (is_nil ws0); [discriminate|]; split; congruence).
  destruct Q0 as (-> & ->). clear K FC.
  assert (STI : staircase ux uy start (skipn i path)).
  { clear -ST. revert i start ST. induction path as [|w path IH]; intros i start ST; [now rewrite skipn_nil|].
    destruct i as [|i]; [exact ST|]. cbn [skipn]. destruct ST as (A & B & C). apply (IH i) in C.
    destruct (skipn i path); [exact I|]. cbn in C |- *. destruct C as (C1 & C2 & C3).
    unfold onward in *. destruct ux, uy; split; try lra; split; try lra; exact C3. }
  assert (AX : forall s, axis_ok true vm s s (s - vm) (s + vm) /\ axis_ok false vm s s (s - vm) (s + vm))
    by (intro s; unfold axis_ok; lra).
  assert (BOX : forall up s, axis_ok up vm s s (s - vm) (s + vm)) by (intros [|] s; apply AX).
  (* every point of a staircase lies between start and the last point *)
  assert (BT : forall ws s, staircase ux uy s ws -> forall p, In p ws ->
     onward ux (fst s) (fst p) /\ onward uy (snd s) (snd p) /\
     onward ux (fst p) (fst (last ws s)) /\ onward uy (snd p) (snd (last ws s))).
  { clear. induction ws as [|w ws IH]; intros s ST p J; [destruct J|]. destruct ST as (A & B & C).
    assert (LW : last (w :: ws) s = last ws w) by (destruct ws as [|k ws]; [reflexivity|]; change (last (k :: ws) s = last (k :: ws) w); apply last_nonnil; discriminate).
    rewrite LW. destruct J as [<-|J].
    - destruct ws as [|w' ws]; [cbn; split; [exact A|]; split; [exact B|]; unfold onward; destruct ux, uy; lra|].
      destruct (IH w C (last (w' :: ws) w)) as (D & E & _).
      { clear. generalize w' as z. induction ws as [|k ws IH]; intro z; [now left|right; apply IH]. }
      split; [exact A|]. split; [exact B|]. split; [exact D|exact E].
    - destruct (IH w C p J) as (D & E & F & G).
      unfold onward in *. destruct ux, uy; repeat split; lra. }
  destruct (point_in_frame (base_box c start) (last path (0, 0)) 0) eqn:E.
  - injection H as <- <-. apply in_frame_iff in E. split; [unfold clearance, base_box; cbn; fold vm; lra|].
    intros p J. specialize (BT _ _ STI p J). rewrite (@last_nonnil pt _ _ (0, 0)), last_skipn in BT
      by (try exact IL; intro Z; rewrite Z in J; destruct J).
    revert E BT. unfold interior, base_box; cbn [xlo ylo xhi yhi]; fold vm. clearbody vm. unfold onward. change (@last (Q * Q) path (0, 0)) with (@last pt path (0, 0)). clear -V. generalize (@last pt path (0, 0)) as g. intro g.
    destruct ux, uy; intros (E1 & E2) (B1 & B2 & B3 & B4); lra.
  - apply bind_ok in H. destruct H as (st & S & H). destruct st as [|o st]; cbn [is_nil] in H.
    + injection H as <- <-.
      pose proof (axis_update ux vm _ _ _ _ (fst (last path (0, 0))) V (BOX ux (fst start))) as UX.
      pose proof (axis_update uy vm _ _ _ _ (snd (last path (0, 0))) V (BOX uy (snd start))) as UY.
      assert (OG : onward ux (fst start) (fst (last path (0, 0))) /\ onward uy (snd start) (snd (last path (0, 0)))).
      { destruct path as [|w path]; [cbn in IL; lia|].
        destruct (BT (w :: path) start ST (last (w :: path) (0, 0))) as (D1 & D2 & _); [|auto].
        clear. generalize w as z. induction path as [|k ws IH]; intro z; [now left|right; apply IH]. }
      destruct OG as (OX & OY). specialize (UX OX). specialize (UY OY).
      unfold update_with_waypoint. fold vm. unfold base_box. fold vm. cbn [xlo ylo xhi yhi].
      destruct (if ltb (fst start) (fst (last path (0, 0))) then _ else _) as [x0 x1].
      destruct (if ltb (snd start) (snd (last path (0, 0))) then _ else _) as [y0 y1].
      destruct UX as (UX & X1 & X2), UY as (UY & Y1 & Y2). split.
      * unfold clearance. cbn [xlo ylo xhi yhi]. lra.
      * intros p J. specialize (BT _ _ STI p J). rewrite (@last_nonnil pt _ _ (0, 0)), last_skipn in BT
          by (try exact IL; intro Z; rewrite Z in J; destruct J).
        change (@last (Q * Q) path (0, 0)) with (@last pt path (0, 0)) in *.
        revert UX UY BT. unfold interior, axis_ok, onward; cbn [xlo ylo xhi yhi]. clearbody vm. destruct ux, uy; intros; lra.
    + eapply staircase_scan in H; [apply H|exact V|apply BOX|apply BOX|exact STI|intros p []].
Qed.
