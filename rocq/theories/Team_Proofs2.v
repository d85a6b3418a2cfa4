(** Whole fleets: distances between the bodies, when the construction raises,
    names of the variables. *)
From Coq Require Import Reals List Arith Lia Lra String Bool.
From Verif Require Import Spline_Model Spline_Spec Splop_Spec Vehicle_Model Vehicle_Spec Lift_Model Lift_Spec Lift_Proofs Lift_Proofs2 Lift_Proofs3 Geom_Spec
  Team_Model Team_Proofs.
From Verif Require Geom_Proofs4 Geom_Model Geom_Proofs Opti_Model Opti_Spec Opti_Proofs Opti_Proofs3.
Import ListNotations.
Local Open Scope list_scope.
Local Notation length := List.length.
Local Open Scope R_scope.

Lemma half_atan : forall u, cos (2 * atan u / 2) <> 0 /\ tan (2 * atan u / 2) = u.
Proof.
  intros u. replace (2 * atan u / 2) with (atan u) by field. split; [|apply tan_atan].
  pose proof (atan_bound u). apply Rgt_not_eq. apply cos_gt_0; lra.
Qed.
Lemma apart_inter : forall var env n n_seg vs cs, apart_cons var env n n_seg vs = Some cs -> inter var env n n_seg vs = Some cs.
Proof. intros var env n n_seg vs cs. unfold apart_cons. destruct (forallb _ vs); [auto|discriminate]. Qed.

Lemma le0_now : forall X cs e tau, 0 <= tau <= 1 -> solved 0 X cs -> In (le0 e) cs -> fits X e -> mentions e = true ->
  sval (jets X tau) e <= 0.
Proof.
  intros X cs e tau I Sl Hin Fe Me. pose proof (lift_close 0 X (le0 e) tau (Rle_refl 0) Fe Me I (solved_one _ _ _ _ Sl Hin)) as [_ U].
  cbn [le0 chi cexpr] in U. rewrite drift_0 in U. lra.
Qed.

(* one direction *)
Lemma planar_pair : forall var env n_seg vs cs X idx v w c1 r1 x1 y1 t1 o1 c2 r2 x2 y2 t2 o2 tau,
  inter var env 2 n_seg vs = Some cs -> solved 0 X cs -> (idx < n_seg)%nat ->
  In (v, w) (couples vs) -> (1 <= m_shapes v)%nat -> (1 <= m_shapes w)%nat ->
  m_body v = Planar c1 r1 x1 y1 t1 o1 -> m_body w = Planar c2 r2 x2 y2 t2 o2 ->
  (forall l n c, on_unit (X (var l n c))) ->
  (forall e, In e [x1 idx; y1 idx; t1 idx; x2 idx; y2 idx; t2 idx] -> fits X e) -> 0 <= tau <= 1 ->
  let at_ e := sval (jets X tau) e in
  exists e1 e2, 0 <= e1 <= Rmax 0 (m_sd v) /\ 0 <= e2 <= Rmax 0 (m_sd w) /\
  forall p q, hull (map (world (at_ (x1 idx), at_ (y1 idx)) (2 * atan (at_ (t1 idx))) o1) c1) p ->
              hull (map (world (at_ (x2 idx), at_ (y2 idx)) (2 * atan (at_ (t2 idx))) o2) c2) q ->
  (r1 + m_sd v - e1) + (r2 + m_sd w - e2) <= dist p q.
Proof.
  intros var env n_seg vs cs X idx v w c1 r1 x1 y1 t1 o1 c2 r2 x2 y2 t2 o2 tau HI Sv Hi Hp Hv Hw Bv Bw U F I at_.
  destruct (inter_pair var env 2 n_seg vs cs idx v w HI Hi Hp Hv Hw) as (Nm & k & l & A1 & A2 & B1 & B2).
  exists (at_ (slack var v k)), (at_ (slack var w l)).
  split. { apply (slack_range var 0); auto; [lra|]. exact (solved_incl _ _ _ _ A1 Sv). }
  split. { apply (slack_range var 0); auto; [lra|]. exact (solved_incl _ _ _ _ B1 Sv). }
  intros p q Hq1 Hq2.
  set (a0 := SV (var env (inter_name "a" idx v 0 w 0) 0%nat) 0) in *.
  set (a1 := SV (var env (inter_name "a" idx v 0 w 0) 1%nat) 0) in *.
  set (b := SV (var env (inter_name "b" idx v 0 w 0) 0%nat) 0) in *.
  destruct (half_atan (at_ (t1 idx))) as [C1 T1]. destruct (half_atan (at_ (t2 idx))) as [C2 T2].
  refine (apart_exact X a0 a1 b c1 r1 (m_sd v) (slack var v k) (x1 idx) (y1 idx) (t1 idx) o1
     c2 r2 (m_sd w) (slack var w l) (x2 idx) (y2 idx) (t2 idx) o2 tau _ _ I _ eq_refl C1 (eq_sym T1) C2 (eq_sym T2) _ p q Hq1 Hq2).
  - intros e He. cbn [In] in He.
    destruct He as [<-|[<-|[<-|[<-|[<-|[<-|[<-|[<-|[<-|[<-|[<-|[]]]]]]]]]]]];
      try (split; [apply U|lia]); try (apply slack_fits; exact U); apply F; cbn; tauto.
  - apply (solved_incl _ _ _ cs); [|exact Sv]. intros e [<-|He]; [exact Nm|].
    apply in_app_or in He as [He|He].
    + apply A2. unfold side_cons. rewrite Bv. exact He.
    + apply B2. unfold side_cons. rewrite Bw. exact He.
Qed.

Theorem planar_apart : forall var env n_seg vs cs X idx v w c1 r1 x1 y1 t1 o1 c2 r2 x2 y2 t2 o2 tau,
  apart_cons var env 2 n_seg vs = Some cs -> solved 0 X cs -> (idx < n_seg)%nat ->
  In v vs -> In w vs -> m_label v <> m_label w -> (1 <= m_shapes v)%nat -> (1 <= m_shapes w)%nat ->
  m_body v = Planar c1 r1 x1 y1 t1 o1 -> m_body w = Planar c2 r2 x2 y2 t2 o2 ->
  (forall l n c, on_unit (X (var l n c))) ->
  (forall e, In e [x1 idx; y1 idx; t1 idx; x2 idx; y2 idx; t2 idx] -> fits X e) -> 0 <= tau <= 1 ->
  let at_ e := sval (jets X tau) e in
  exists e1 e2, 0 <= e1 <= Rmax 0 (m_sd v) /\ 0 <= e2 <= Rmax 0 (m_sd w) /\
  forall p q, hull (map (world (at_ (x1 idx), at_ (y1 idx)) (2 * atan (at_ (t1 idx))) o1) c1) p ->
              hull (map (world (at_ (x2 idx), at_ (y2 idx)) (2 * atan (at_ (t2 idx))) o2) c2) q ->
  (r1 + m_sd v - e1) + (r2 + m_sd w - e2) <= dist p q.
Proof.
  intros var env n_seg vs cs X idx v w c1 r1 x1 y1 t1 o1 c2 r2 x2 y2 t2 o2 tau HA Sv Hi Iv Iw N Hv Hw Bv Bw U F I at_.
  apply apart_inter in HA. destruct (couples_all vs v w Iv Iw N) as [H|H].
  - exact (planar_pair var env n_seg vs cs X idx v w c1 r1 x1 y1 t1 o1 c2 r2 x2 y2 t2 o2 tau HA Sv Hi H Hv Hw Bv Bw U F I).
  - destruct (planar_pair var env n_seg vs cs X idx w v c2 r2 x2 y2 t2 o2 c1 r1 x1 y1 t1 o1 tau HA Sv Hi H Hw Hv Bw Bv U) as (e2 & e1 & E2 & E1 & D).
    + intros e He. apply F. cbn in *. tauto.
    + exact I.
    + exists e1, e2. split; [exact E1|]. split; [exact E2|]. intros p q Hp Hq. rewrite Geom_Proofs.dist_sym.
      specialize (D q p Hq Hp). lra.
Qed.

Lemma diff3_sym : forall p q, dist3 p q = dist3 q p.
Proof. intros p q. unfold dist3. f_equal. unfold inner3, diff3. destruct p as [[a b] c], q as [[d e] f]. cbn. ring. Qed.

Lemma space_pair : forall var env n_seg vs cs X idx v w c1 r1 x1 y1 z1 c2 r2 x2 y2 z2 tau,
  inter var env 3 n_seg vs = Some cs -> solved 0 X cs -> (idx < n_seg)%nat ->
  In (v, w) (couples vs) -> (1 <= m_shapes v)%nat -> (1 <= m_shapes w)%nat ->
  m_body v = Space c1 r1 x1 y1 z1 -> m_body w = Space c2 r2 x2 y2 z2 ->
  (forall l n c, on_unit (X (var l n c))) ->
  (forall e, In e [x1 idx; y1 idx; z1 idx; x2 idx; y2 idx; z2 idx] -> fits X e) -> 0 <= tau <= 1 ->
  let at_ e := sval (jets X tau) e in
  exists e1 e2, 0 <= e1 <= Rmax 0 (m_sd v) /\ 0 <= e2 <= Rmax 0 (m_sd w) /\
  forall p q, hull3 (map (plus3 (at_ (x1 idx), at_ (y1 idx), at_ (z1 idx))) c1) p ->
              hull3 (map (plus3 (at_ (x2 idx), at_ (y2 idx), at_ (z2 idx))) c2) q ->
  (r1 + m_sd v - e1) + (r2 + m_sd w - e2) <= dist3 p q.
Proof.
  intros var env n_seg vs cs X idx v w c1 r1 x1 y1 z1 c2 r2 x2 y2 z2 tau HI Sv Hi Hp Hv Hw Bv Bw U F I at_.
  destruct (inter_pair var env 3 n_seg vs cs idx v w HI Hi Hp Hv Hw) as (Nm & k & l & A1 & A2 & B1 & B2).
  exists (at_ (slack var v k)), (at_ (slack var w l)).
  split. { apply (slack_range var 0); auto; [lra|]. exact (solved_incl _ _ _ _ A1 Sv). }
  split. { apply (slack_range var 0); auto; [lra|]. exact (solved_incl _ _ _ _ B1 Sv). }
  intros p q Hq1 Hq2.
  set (a0 := SV (var env (inter_name "a" idx v 0 w 0) 0%nat) 0).
  set (a1 := SV (var env (inter_name "a" idx v 0 w 0) 1%nat) 0).
  set (a2 := SV (var env (inter_name "a" idx v 0 w 0) 2%nat) 0).
  set (b := SV (var env (inter_name "b" idx v 0 w 0) 0%nat) 0).
  assert (Fa : fits X a0 /\ fits X a1 /\ fits X a2 /\ fits X b) by (repeat split; try apply U; lia).
  destruct Fa as (F0 & F1 & F2 & Fb).
  assert (Fx : forall e, In e [x1 idx; y1 idx; z1 idx; x2 idx; y2 idx; z2 idx; slack var v k; slack var w l] -> fits X e).
  { intros e He. change (In e ([x1 idx; y1 idx; z1 idx; x2 idx; y2 idx; z2 idx] ++ [slack var v k; slack var w l])) in He.
    apply in_app_or in He as [He|[<-|[<-|[]]]]; [apply F; exact He| |]; apply slack_fits; exact U. }
  cut (r1 + (r2 + m_sd w - at_ (slack var w l)) + (m_sd v - at_ (slack var v k)) <= dist3 p q); [lra|].
  refine (Geom_Proofs4.collision_free3 (at_ a0, at_ a1, at_ a2) (at_ b) c1 r1 (m_sd v) (at_ (slack var v k))
    (at_ (x1 idx), at_ (y1 idx), at_ (z1 idx)) c2 (r2 + m_sd w - at_ (slack var w l)) (at_ (x2 idx), at_ (y2 idx), at_ (z2 idx)) _ _ _ p q Hq1 Hq2).
  - assert (K : at_ (norm3_sx a0 a1 a2) <= 0).
    { apply (le0_now X cs _ tau I Sv Nm); [|reflexivity]. cbn. repeat split; try apply U; lia. }
    unfold norm3_sx, at_ in K. cbn [sval] in K. unfold Geom_Model.norm_con3, Geom_Model.dot3, at_. lra.
  - intros c Hc. assert (K : at_ (veh3_sx a0 a1 a2 b c r1 (m_sd v) (slack var v k) (x1 idx) (y1 idx) (z1 idx)) <= 0).
    { apply (le0_now X cs _ tau I Sv).
      + apply A2. unfold side_cons. rewrite Bv. cbn [nth].
        apply (in_map (fun c => le0 (veh3_sx a0 a1 a2 b c r1 (m_sd v) (slack var v k) (x1 idx) (y1 idx) (z1 idx)))). exact Hc.
      + unfold veh3_sx; cbn [fits]; repeat split; try (apply Fx; cbn; tauto); try apply U; lia.
      + reflexivity. }
    unfold veh3_sx, at_ in K. cbn [sval] in K. destruct c as [[c c'] c''].
    unfold Geom_Model.veh_con3, Geom_Model.dot3, Geom_Model.add3, at_. cbn [fst snd] in *. lra.
  - intros c Hc. assert (K : at_ (veh3_sx (- a0) (- a1) (- a2) (- b) c r2 (m_sd w) (slack var w l) (x2 idx) (y2 idx) (z2 idx))%sx <= 0).
    { apply (le0_now X cs _ tau I Sv).
      + apply B2. unfold side_cons. rewrite Bw. cbn [nth opposite plane fst snd map seq].
        apply (in_map (fun c => le0 (veh3_sx (- a0) (- a1) (- a2) (- b) c r2 (m_sd w) (slack var w l) (x2 idx) (y2 idx) (z2 idx))%sx)). exact Hc.
      + unfold veh3_sx; cbn [fits]; repeat split; try (apply Fx; cbn; tauto); try apply U; lia.
      + reflexivity. }
    unfold veh3_sx, at_ in K. cbn [sval] in K. destruct c as [[c c'] c''].
    unfold Geom_Model.obs_con3, Geom_Model.dot3, Geom_Model.add3, at_. cbn [fst snd] in *. lra.
Qed.
Theorem space_apart : forall var env n_seg vs cs X idx v w c1 r1 x1 y1 z1 c2 r2 x2 y2 z2 tau,
  apart_cons var env 3 n_seg vs = Some cs -> solved 0 X cs -> (idx < n_seg)%nat ->
  In v vs -> In w vs -> m_label v <> m_label w -> (1 <= m_shapes v)%nat -> (1 <= m_shapes w)%nat ->
  m_body v = Space c1 r1 x1 y1 z1 -> m_body w = Space c2 r2 x2 y2 z2 ->
  (forall l n c, on_unit (X (var l n c))) ->
  (forall e, In e [x1 idx; y1 idx; z1 idx; x2 idx; y2 idx; z2 idx] -> fits X e) -> 0 <= tau <= 1 ->
  let at_ e := sval (jets X tau) e in
  exists e1 e2, 0 <= e1 <= Rmax 0 (m_sd v) /\ 0 <= e2 <= Rmax 0 (m_sd w) /\
  forall p q, hull3 (map (plus3 (at_ (x1 idx), at_ (y1 idx), at_ (z1 idx))) c1) p ->
              hull3 (map (plus3 (at_ (x2 idx), at_ (y2 idx), at_ (z2 idx))) c2) q ->
  (r1 + m_sd v - e1) + (r2 + m_sd w - e2) <= dist3 p q.
Proof.
  intros var env n_seg vs cs X idx v w c1 r1 x1 y1 z1 c2 r2 x2 y2 z2 tau HA Sv Hi Iv Iw N Hv Hw Bv Bw U F I at_.
  apply apart_inter in HA. destruct (couples_all vs v w Iv Iw N) as [H|H].
  - exact (space_pair var env n_seg vs cs X idx v w c1 r1 x1 y1 z1 c2 r2 x2 y2 z2 tau HA Sv Hi H Hv Hw Bv Bw U F I).
  - destruct (space_pair var env n_seg vs cs X idx w v c2 r2 x2 y2 z2 c1 r1 x1 y1 z1 tau HA Sv Hi H Hw Hv Bw Bv U) as (e2 & e1 & E2 & E1 & D).
    + intros e He. apply F. cbn in *. tauto.
    + exact I.
    + exists e1, e2. split; [exact E1|]. split; [exact E2|]. intros p q Hp Hq. rewrite diff3_sym.
      specialize (D q p Hq Hp). lra.
Qed.

(* when it raises *)
Lemma forallb_false : forall A (f : A -> bool) l, forallb f l = false -> exists x, In x l /\ f x = false.
Proof.
  intros A f l. induction l as [|a l IH]; cbn; [discriminate|]. destruct (f a) eqn:E.
  - intros H. destruct (IH H) as (x & Hx & Fx). eauto.
  - intros _. eauto.
Qed.
Lemma veh_cons_none : forall var idx v hs, veh_cons var idx v hs = None <-> (2 <= m_shapes v)%nat.
Proof. intros var idx v hs. unfold veh_cons. destruct (m_shapes v) as [|[|n]]; split; try discriminate; try lia; reflexivity. Qed.
Lemma inter_seg_none : forall var env n idx vs, (forall v, In v vs -> m_dim v = n) ->
  (inter_seg var env n idx vs = None <-> exists v, In v vs /\ (2 <= m_shapes v)%nat).
Proof.
  intros var env n idx vs D. unfold inter_seg.
  replace (forallb (fun p => (m_dim (fst p) =? m_dim (snd p))%nat) (couples vs)) with true.
  2:{ symmetry. apply forallb_forall. intros [v w] H. apply couples_in in H as (A & B & _). cbn [fst snd].
      rewrite (D v A), (D w B). apply Nat.eqb_refl. }
  match goal with |- match ?g with _ => _ end = _ <-> _ => destruct g as [cv|] eqn:G end.
  - split; [discriminate|]. intros (v & Hv & Hs).
    destruct (gather_some _ _ _ G (veh_cons var idx v (hyps var env n idx vs (m_label v) 0))) as (x & E & _).
    { apply in_map_iff. exists v. auto. }
    apply (proj2 (veh_cons_none var idx v (hyps var env n idx vs (m_label v) 0))) in Hs. congruence.
  - split; [intros _|reflexivity]. apply gather_none in G. apply in_map_iff in G as (v & E & Hv).
    exists v. split; [exact Hv|]. apply veh_cons_none in E. exact E.
Qed.
Theorem apart_raises : forall var env n n_seg vs, apart_cons var env n n_seg vs = None <->
  (exists v, In v vs /\ m_dim v <> n) \/ ((1 <= n_seg)%nat /\ exists v, In v vs /\ (2 <= m_shapes v)%nat).
Proof.
  intros var env n n_seg vs. unfold apart_cons. destruct (forallb (fun v => (m_dim v =? n)%nat) vs) eqn:D.
  - assert (D' : forall v, In v vs -> m_dim v = n).
    { intros v Hv. apply Nat.eqb_eq. rewrite forallb_forall in D. auto. }
    unfold inter. rewrite gather_none, in_map_iff. split.
    + intros (idx & E & H). apply in_seq in H. right. split; [lia|]. apply inter_seg_none in E; assumption.
    + intros [(v & Hv & N)|(P & H)]; [elim N; auto|]. exists 0%nat. split; [|apply in_seq; lia].
      apply inter_seg_none; assumption.
  - split; [intros _|reflexivity]. left. apply forallb_false in D as (v & Hv & E). exists v. split; [exact Hv|].
    apply Nat.eqb_neq. exact E.
Qed.

(* names *)
Local Notation no_us := Opti_Spec.no_underscore.
Lemma app_cancel : forall a b c : string, (a ++ b = a ++ c)%string -> b = c.
Proof. induction a as [|x a IH]; intros b c H; [exact H|]. injection H as H. auto. Qed.
Lemma no_us_app : forall a b, no_us a -> no_us b -> no_us (a ++ b)%string.
Proof.
  intros a b. unfold Opti_Spec.no_underscore, Opti_Spec.chars. induction a as [|x a IH]; cbn; auto.
  intros Ha Hb. inversion Ha; subst. constructor; auto.
Qed.
Lemma front : forall a b x y, no_us a -> no_us b -> (a ++ "_" ++ x = b ++ "_" ++ y)%string -> a = b /\ x = y.
Proof.
  induction a as [|c a IH]; intros [|d b] x y Ha Hb H; cbn in H.
  - injection H as H. auto.
  - injection H as E _. inversion Hb; subst. congruence.
  - injection H as E _. inversion Ha; subst. congruence.
  - injection H as E H. inversion Ha; inversion Hb; subst. destruct (IH b x y) as [-> ->]; auto.
Qed.
Lemma no_us_end : forall a b x, no_us a -> no_us b -> (a ++ "_" ++ x)%string <> b.
Proof.
  induction a as [|c a IH]; intros [|d b] x Ha Hb H; cbn in H; try discriminate.
  - injection H as E _. inversion Hb; subst. congruence.
  - injection H as E H. inversion Ha; inversion Hb; subst. refine (IH _ x _ _ eq_refl); assumption.
Qed.
Lemma num_us : forall n, no_us (Opti_Model.py_str n).
Proof. exact Opti_Proofs3.py_str_no_us. Qed.
Lemma seg_us : forall n, no_us ("seg" ++ Opti_Model.py_str n)%string.
Proof. intros n. apply no_us_app; [|apply num_us]. repeat constructor; discriminate. Qed.

Theorem inter_names : forall p p' idx idx' v v' w w' kk kk' ll ll',
  no_us p -> no_us p' -> no_us (m_label v) -> no_us (m_label v') -> no_us (m_label w) -> no_us (m_label w') ->
  inter_name p idx v kk w ll = inter_name p' idx' v' kk' w' ll' ->
  p = p' /\ idx = idx' /\ m_label v = m_label v' /\ kk = kk' /\ m_label w = m_label w' /\ ll = ll'.
Proof.
  intros p p' idx idx' v v' w w' kk kk' ll ll' Hp Hp' Hv Hv' Hw Hw' H. unfold inter_name in H.
  apply front in H as [E1 H]; auto. apply front in H as [E2 H]; auto.
  assert (As : forall a b c : string, (a ++ (b ++ c) = (a ++ b) ++ c)%string).
  { induction a as [|x a IH]; intros b c; cbn; [reflexivity|f_equal; apply IH]. }
  rewrite (As "seg"%string (Opti_Model.py_str idx)), (As "seg"%string (Opti_Model.py_str idx')) in H.
  apply front in H as [E3 H]; try apply seg_us. apply app_cancel, Opti_Proofs.py_str_inj in E3.
  apply front in H as [E4 H]; try apply num_us. apply Opti_Proofs.py_str_inj in E4.
  apply front in H as [E5 H]; auto. apply Opti_Proofs.py_str_inj in H. auto 10.
Qed.
Theorem inter_obst_names : forall p p' idx idx' v v' w kk ll k l,
  no_us p -> no_us p' -> no_us (m_label v) -> no_us (m_label v') ->
  inter_name p idx v kk w ll <> obst_name p' idx' v' k l.
Proof.
  intros p p' idx idx' v v' w kk ll k l Hp Hp' Hv Hv' H. unfold inter_name, obst_name in H.
  apply front in H as [E1 H]; auto. apply front in H as [E2 H]; auto.
  assert (As : forall a b c : string, (a ++ (b ++ c) = (a ++ b) ++ c)%string).
  { induction a as [|x a IH]; intros b c; cbn; [reflexivity|f_equal; apply IH]. }
  rewrite (As "seg"%string (Opti_Model.py_str idx)), (As "seg"%string (Opti_Model.py_str idx')) in H.
  apply front in H as [_ H]; try apply seg_us.
  apply no_us_end in H; auto; try apply num_us. apply no_us_app; apply num_us.
Qed.
