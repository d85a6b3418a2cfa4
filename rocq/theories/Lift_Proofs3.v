From Coq Require Import Reals List Arith Bool ZArith Lia Lra.
From Verif Require Import Spline_Model Spline_Spec Splop_Spec Vehicle_Model Vehicle_Spec Lift_Model Lift_Spec Lift_Proofs Lift_Proofs2 Geom_Spec.
From Verif Require Geom_Model Geom_Proofs4.
Import ListNotations.
Local Open Scope R_scope.

Lemma drift_max_in : forall tol X l e, In e l -> drift tol X e <= drift_max tol X l.
Proof.
  induction l as [|a l IH]; intros e []; cbn [drift_max]; [subst; apply Rmax_l|].
  eapply Rle_trans; [apply IH; exact H|apply Rmax_r].
Qed.
Lemma drift_max_0 : forall X l, drift_max 0 X l = 0.
Proof. induction l as [|a l IH]; cbn [drift_max]; [reflexivity|]. rewrite IH, drift_0. apply Rmax_left, Rle_refl. Qed.
Lemma drift_max_nonneg : forall tol X l, 0 <= drift_max tol X l.
Proof. induction l as [|a l IH]; cbn [drift_max]; [apply Rle_refl|]. eapply Rle_trans; [exact IH|apply Rmax_r]. Qed.

(* one-sided constraints at one instant *)
Lemma le0_close : forall tol X cs l e tau, 0 <= tol -> 0 <= tau <= 1 -> solved tol X cs -> In (le0 e) cs -> In e l ->
  fits X e -> mentions e = true -> sval (jets X tau) e <= drift_max tol X l.
Proof.
  intros tol X cs l e tau T I S H1 H2 F M.
  destruct (lift_close tol X (le0 e) tau T F M I (solved_one _ _ _ _ S H1)) as [_ U]. cbn [le0 chi cexpr] in U.
  pose proof (drift_max_in tol X l e H2). lra.
Qed.

Lemma veh_sval : forall env a0 a1 b c0 c1 rad sl sd eps x y tg off,
  sval env (veh_sx a0 a1 b c0 c1 rad sl sd eps x y tg off) =
  Geom_Model.veh_con (sval env a0, sval env a1) (sval env b) (c0, c1) rad (sval env sl) sd (sval env eps) (sval env x, sval env y) (sval env tg) off.
Proof. intros. unfold veh_sx, Geom_Model.veh_con. cbn [sval fst snd]. ring. Qed.
Lemma obs_sval : forall env a0 a1 b c0 c1 rad px py cs sn w,
  sval env (obs_sx a0 a1 b c0 c1 rad px py cs sn w) =
  Geom_Model.obs_con (sval env a0, sval env a1) (sval env b) (c0, c1) rad (sval env px, sval env py) (sval env cs) (sval env sn) (sval env w).
Proof. intros. unfold obs_sx, Geom_Model.obs_con. cbn [sval fst snd]. ring. Qed.
Lemma norm_sval : forall env a0 a1, sval env (norm_sx a0 a1) = Geom_Model.norm_con (sval env a0, sval env a1).
Proof. intros. unfold norm_sx, Geom_Model.norm_con. cbn [sval fst snd]. ring. Qed.

(* the constraints up to small amounts *)
Lemma collision_free_close : forall a b vchk rv sd eps position th off ochk ro opos w phi dv dn d0,
  cos (th / 2) <> 0 -> 0 < w -> 0 <= dv -> 0 <= dn -> Geom_Model.norm_con a <= dn ->
  (forall c, In c vchk -> Geom_Model.veh_con a b c rv 1 sd eps position (tan (th / 2)) off <= dv) ->
  (forall c, In c ochk -> Geom_Model.obs_con a b c ro opos (w * cos phi) (w * sin phi) w <= d0) ->
  forall x y, hull (map (world position th off) vchk) x -> hull (map (world opos phi 0) ochk) y ->
  rv + ro + (sd - eps) - dv - d0 / w <= sqrt (1 + dn) * dist x y.
Proof.
  intros a b vchk rv sd eps position th off ochk ro opos w phi dv dn d0 Hc Hw Pv Pn Hn Hv Ho x y Hx Hy.
  set (q := sqrt (1 + dn)). assert (Q : 0 < q) by (apply sqrt_lt_R0; lra).
  assert (Q2 : q * q = 1 + dn) by (apply sqrt_sqrt; lra).
  set (k := / q). assert (K : 0 < k) by (apply Rinv_0_lt_compat, Q).
  assert (KQ : k * q = 1) by (apply Rinv_l; lra).
  pose proof (Geom_Proofs4.collision_free (k * fst a, k * snd a) (k * b) vchk (k * rv) (k * sd) (k * (eps + dv)) position th off
    ochk (k * (ro - d0 / w)) opos w phi Hc Hw) as G.
  assert (G1 : k * rv + k * (ro - d0 / w) + (k * sd - k * (eps + dv)) <= dist x y).
  { apply G; [| | |exact Hx|exact Hy].
    - unfold Geom_Model.norm_con in *. cbn [fst snd].
      replace (k * fst a * (k * fst a) + k * snd a * (k * snd a) - 1) with (k * k * (fst a * fst a + snd a * snd a) - 1) by ring.
      assert (k * k * (fst a * fst a + snd a * snd a) <= k * k * (q * q)).
      { apply Rmult_le_compat_l; [|lra]. pose proof (Rmult_lt_0_compat k k K K). lra. }
      replace (k * k * (q * q)) with ((k * q) * (k * q)) in H by ring. rewrite KQ in H. lra.
    - intros c Hi. specialize (Hv c Hi). set (t := tan (th / 2)) in *.
      replace (Geom_Model.veh_con (k * fst a, k * snd a) (k * b) c (k * rv) 1 (k * sd) (k * (eps + dv)) position t off)
        with (k * (Geom_Model.veh_con a b c rv 1 sd eps position t off - dv * (1 + t ^ 2)))
        by (unfold Geom_Model.veh_con; cbn [fst snd]; ring).
      assert (0 <= dv * t ^ 2) by (apply Rmult_le_pos; [exact Pv|apply pow2_ge_0]).
      assert (Geom_Model.veh_con a b c rv 1 sd eps position t off - dv * (1 + t ^ 2) <= 0) by lra.
      apply Rmult_le_compat_l with (r := k) in H0; [|lra]. rewrite Rmult_0_r in H0. exact H0.
    - intros c Hi. specialize (Ho c Hi).
      replace (Geom_Model.obs_con (k * fst a, k * snd a) (k * b) c (k * (ro - d0 / w)) opos (w * cos phi) (w * sin phi) w)
        with (k * (Geom_Model.obs_con a b c ro opos (w * cos phi) (w * sin phi) w - d0))
        by (unfold Geom_Model.obs_con; cbn [fst snd]; field; lra).
      assert (Geom_Model.obs_con a b c ro opos (w * cos phi) (w * sin phi) w - d0 <= 0) by lra.
      apply Rmult_le_compat_l with (r := k) in H; [|lra]. rewrite Rmult_0_r in H. exact H. }
  apply Rmult_le_compat_l with (r := q) in G1; [|lra].
  replace (q * (k * rv + k * (ro - d0 / w) + (k * sd - k * (eps + dv)))) with ((k * q) * (rv + ro + (sd - eps) - dv - d0 / w)) in G1 by ring.
  rewrite KQ, Rmult_1_l in G1. exact G1.
Qed.

Lemma veh_fits : forall X a0 a1 b c0 c1 rad sd eps x y tg off,
  fits X a0 -> fits X a1 -> fits X b -> fits X eps -> fits X x -> fits X y -> fits X tg ->
  fits X (veh_sx a0 a1 b c0 c1 rad (SN 1) sd eps x y tg off).
Proof. intros. unfold veh_sx. cbn [fits]. repeat split; auto; lia. Qed.
Lemma obs_fits : forall X a0 a1 b c0 c1 rad px py cs sn w,
  fits X a0 -> fits X a1 -> fits X b -> fits X px -> fits X py -> fits X cs -> fits X sn -> fits X w ->
  fits X (obs_sx a0 a1 b c0 c1 rad px py cs sn w).
Proof. intros. unfold obs_sx. cbn [fits]. repeat split; auto. Qed.
Lemma norm_fits : forall X a0 a1, fits X a0 -> fits X a1 -> fits X (norm_sx a0 a1).
Proof. intros. unfold norm_sx. cbn [fits]. repeat split; auto. Qed.

Theorem safe_close : forall tol X a0 a1 b vchk rv sd eps x y tg off ochk ro px py cs sn w tau th phi,
  0 <= tol -> 0 <= tau <= 1 ->
  (forall e, In e [a0; a1; b; eps; x; y; tg; px; py; cs; sn; w] -> fits X e) -> mentions a0 = true ->
  let at_ e := sval (jets X tau) e in
  let vs := map (fun c => veh_sx a0 a1 b (fst c) (snd c) rv (SN 1) sd eps x y tg off) vchk in
  let os := map (fun c => obs_sx a0 a1 b (fst c) (snd c) ro px py cs sn w) ochk in
  let n := norm_sx a0 a1 in
  cos (th / 2) <> 0 -> at_ tg = tan (th / 2) ->
  0 < at_ w -> at_ cs = at_ w * cos phi -> at_ sn = at_ w * sin phi ->
  solved tol X (le0 n :: map le0 vs ++ map le0 os) ->
  forall p q, hull (map (world (at_ x, at_ y) th off) vchk) p -> hull (map (world (at_ px, at_ py) phi 0) ochk) q ->
  rv + ro + (sd - at_ eps) - drift_max tol X vs - drift_max tol X os / at_ w
    <= sqrt (1 + drift tol X n) * dist p q.
Proof.
  intros tol X a0 a1 b vchk rv sd eps x y tg off ochk ro px py cs sn w tau th phi T I F M at_ vs os n Hc Ht Hw Hcs Hsn S p q Hp Hq.
  assert (Fn : fits X n) by (apply norm_fits; apply F; cbn; tauto).
  destruct (S (le0 n) (or_introl eq_refl)) as (on & Bn & _).
  assert (Mn : mentions n = true) by (unfold n, norm_sx; cbn [mentions]; rewrite M; reflexivity).
  assert (Pn : 0 <= drift tol X n) by (apply (drift_nonneg tol X n tau on); auto).
  assert (NC : Geom_Model.norm_con (at_ a0, at_ a1) <= drift tol X n).
  { pose proof (le0_close tol X _ [n] n tau T I S (or_introl eq_refl) (or_introl eq_refl) Fn Mn) as K.
    unfold n in K at 1. rewrite norm_sval in K. cbn [drift_max] in K. rewrite Rmax_left in K by exact Pn. exact K. }
  apply (collision_free_close (at_ a0, at_ a1) (at_ b) vchk rv sd (at_ eps) (at_ x, at_ y) th off ochk ro (at_ px, at_ py) (at_ w) phi); auto.
  - apply drift_max_nonneg.
  - intros c Hi. rewrite <- Ht.
    pose proof (veh_sval (jets X tau) a0 a1 b (fst c) (snd c) rv (SN 1) sd eps x y tg off) as V. cbn [sval] in V.
    rewrite <- surjective_pairing in V. fold (at_ a0) (at_ a1) (at_ b) (at_ x) (at_ y) (at_ tg) (at_ eps) in V. rewrite <- V.
    assert (Hin : In (veh_sx a0 a1 b (fst c) (snd c) rv (SN 1) sd eps x y tg off) vs)
      by (apply (in_map (fun c => veh_sx a0 a1 b (fst c) (snd c) rv (SN 1) sd eps x y tg off)); exact Hi).
    apply (le0_close tol X (le0 n :: map le0 vs ++ map le0 os)); auto.
    + right. apply in_or_app. left. apply in_map, Hin.
    + apply veh_fits; apply F; cbn; tauto.
    + unfold veh_sx. cbn [mentions]. rewrite M. reflexivity.
  - intros c Hi. rewrite <- Hcs, <- Hsn.
    pose proof (obs_sval (jets X tau) a0 a1 b (fst c) (snd c) ro px py cs sn w) as V.
    rewrite <- surjective_pairing in V. fold (at_ a0) (at_ a1) (at_ b) (at_ px) (at_ py) (at_ cs) (at_ sn) (at_ w) in V. rewrite <- V.
    assert (Hin : In (obs_sx a0 a1 b (fst c) (snd c) ro px py cs sn w) os)
      by (apply (in_map (fun c => obs_sx a0 a1 b (fst c) (snd c) ro px py cs sn w)); exact Hi).
    apply (le0_close tol X (le0 n :: map le0 vs ++ map le0 os)); auto.
    + right. apply in_or_app. right. apply in_map, Hin.
    + apply obs_fits; apply F; cbn; tauto.
    + unfold obs_sx. cbn [mentions]. rewrite M. reflexivity.
Qed.
Theorem safe_exact : forall X a0 a1 b vchk rv sd eps x y tg off ochk ro px py cs sn w tau th phi,
  0 <= tau <= 1 ->
  (forall e, In e [a0; a1; b; eps; x; y; tg; px; py; cs; sn; w] -> fits X e) -> mentions a0 = true ->
  let at_ e := sval (jets X tau) e in
  let vs := map (fun c => veh_sx a0 a1 b (fst c) (snd c) rv (SN 1) sd eps x y tg off) vchk in
  let os := map (fun c => obs_sx a0 a1 b (fst c) (snd c) ro px py cs sn w) ochk in
  cos (th / 2) <> 0 -> at_ tg = tan (th / 2) ->
  0 < at_ w -> at_ cs = at_ w * cos phi -> at_ sn = at_ w * sin phi ->
  solved 0 X (le0 (norm_sx a0 a1) :: map le0 vs ++ map le0 os) ->
  forall p q, hull (map (world (at_ x, at_ y) th off) vchk) p -> hull (map (world (at_ px, at_ py) phi 0) ochk) q ->
  rv + ro + (sd - at_ eps) <= dist p q.
Proof.
  intros X a0 a1 b vchk rv sd eps x y tg off ochk ro px py cs sn w tau th phi I F M at_ vs os Hc Ht Hw Hcs Hsn S p q Hp Hq.
  pose proof (safe_close 0 X a0 a1 b vchk rv sd eps x y tg off ochk ro px py cs sn w tau th phi (Rle_refl 0) I F M Hc Ht Hw Hcs Hsn S p q Hp Hq) as K.
  rewrite !drift_max_0, drift_0 in K. unfold Rdiv in K. rewrite Rmult_0_l, (Rplus_0_r 1), sqrt_1 in K. unfold at_ in *. lra.
Qed.

(* two vehicles *)
Theorem apart_exact : forall X a0 a1 b c1 r1 s1 e1 x1 y1 t1 o1 c2 r2 s2 e2 x2 y2 t2 o2 tau th1 th2,
  0 <= tau <= 1 ->
  (forall e, In e [a0; a1; b; e1; x1; y1; t1; e2; x2; y2; t2] -> fits X e) -> mentions a0 = true ->
  let at_ e := sval (jets X tau) e in
  cos (th1 / 2) <> 0 -> at_ t1 = tan (th1 / 2) -> cos (th2 / 2) <> 0 -> at_ t2 = tan (th2 / 2) ->
  solved 0 X (le0 (norm_sx a0 a1) ::
    map (fun c => le0 (veh_sx a0 a1 b (fst c) (snd c) r1 (SN 1) s1 e1 x1 y1 t1 o1)) c1 ++
    map (fun c => le0 (veh_sx (- a0) (- a1) (- b) (fst c) (snd c) r2 (SN 1) s2 e2 x2 y2 t2 o2)) c2) ->
  forall p q, hull (map (world (at_ x1, at_ y1) th1 o1) c1) p -> hull (map (world (at_ x2, at_ y2) th2 o2) c2) q ->
  (r1 + s1 - at_ e1) + (r2 + s2 - at_ e2) <= dist p q.
Proof.
  intros X a0 a1 b c1 r1 s1 e1 x1 y1 t1 o1 c2 r2 s2 e2 x2 y2 t2 o2 tau th1 th2 I F M at_ C1 T1 C2 T2 S p q Hp Hq.
  assert (Z : forall l, solved 0 X l -> forall e, In (le0 e) l -> fits X e -> mentions e = true -> at_ e <= 0).
  { intros l Sl e Hin Fe Me. pose proof (lift_close 0 X (le0 e) tau (Rle_refl 0) Fe Me I (solved_one _ _ _ _ Sl Hin)) as [_ U].
    cbn [le0 chi cexpr] in U. rewrite drift_0 in U. unfold at_. lra. }
  apply (Geom_Proofs4.vehicles_apart (at_ a0, at_ a1) (at_ b) c1 r1 (at_ x1, at_ y1) th1 o1 s1 (at_ e1)
    c2 r2 (at_ x2, at_ y2) th2 o2 s2 (at_ e2)); auto.
  - unfold at_. rewrite <- norm_sval. apply (Z _ S); [left; reflexivity| |].
    + apply norm_fits; apply F; cbn; tauto.
    + unfold norm_sx; cbn [mentions]; rewrite M; reflexivity.
  - intros c Hi. rewrite <- T1.
    pose proof (veh_sval (jets X tau) a0 a1 b (fst c) (snd c) r1 (SN 1) s1 e1 x1 y1 t1 o1) as V. cbn [sval] in V.
    rewrite <- surjective_pairing in V. unfold at_. rewrite <- V.
    apply (Z _ S); [right; apply in_or_app; left| |].
    + apply (in_map (fun c => le0 (veh_sx a0 a1 b (fst c) (snd c) r1 (SN 1) s1 e1 x1 y1 t1 o1))). exact Hi.
    + apply veh_fits; apply F; cbn; tauto.
    + unfold veh_sx; cbn [mentions]; rewrite M; reflexivity.
  - intros c Hi. rewrite <- T2.
    pose proof (veh_sval (jets X tau) (- a0)%sx (- a1)%sx (- b)%sx (fst c) (snd c) r2 (SN 1) s2 e2 x2 y2 t2 o2) as V. cbn [sval] in V.
    rewrite <- surjective_pairing in V. unfold at_. cbn [fst snd]. rewrite <- V.
    apply (Z _ S); [right; apply in_or_app; right| |].
    + apply (in_map (fun c => le0 (veh_sx (- a0) (- a1) (- b) (fst c) (snd c) r2 (SN 1) s2 e2 x2 y2 t2 o2))). exact Hi.
    + apply veh_fits; cbn [fits]; apply F; cbn; tauto.
    + unfold veh_sx; cbn [mentions]; rewrite M; reflexivity.
Qed.

(* room constraints of an unrotated vehicle: exact at every tolerance *)
Theorem room_all : forall tol X room rx ry chk rad x y tau, 0 <= tol -> 0 <= tau <= 1 -> 0 <= rad ->
  fits X x -> fits X y -> mentions x = true -> mentions y = true -> plain x = true -> plain y = true ->
  solved tol X (flat_map (fun c => room_sx room rx ry (fst c) (snd c) rad x y) chk) ->
  let at_ e := sval (jets X tau) e in
  forall p, inflated (map (moved (at_ x, at_ y)) chk) rad p -> in_room room (rx, ry) p.
Proof.
  intros tol X room rx ry chk rad x y tau T I R Fx Fy Mx My Px Py S at_.
  apply (Geom_Proofs4.room_rect_iff chk rad (at_ x, at_ y) room (rx, ry) R).
  intros c e Hc He.
  assert (H : holds (jets X tau) (flat_map (fun c => room_sx room rx ry (fst c) (snd c) rad x y) chk)).
  { apply (lift_plain tol); auto. intros d Hd. apply in_flat_map in Hd as (c' & _ & Hd). unfold room_sx in Hd.
    destruct Hd as [<-|[<-|[<-|[<-|[]]]]]; cbn [le0 cexpr fits mentions plain]; rewrite ?Mx, ?My, ?Px, ?Py; cbn; auto 6. }
  assert (K : forall k, In k (room_sx room rx ry (fst c) (snd c) rad x y) -> sval (jets X tau) (cexpr k) <= chi k).
  { intros k Hk. apply (H k). apply in_flat_map. exists c. split; [exact Hc|exact Hk]. }
  unfold Geom_Model.room_cons in He. cbn [fst snd] in He. unfold room_sx in K.
  destruct He as [<-|[<-|[<-|[<-|[]]]]].
  - specialize (K _ (or_introl eq_refl)). cbn [le0 cexpr chi sval] in K. exact K.
  - specialize (K _ (or_intror (or_introl eq_refl))). cbn [le0 cexpr chi sval] in K. exact K.
  - specialize (K _ (or_intror (or_intror (or_introl eq_refl)))). cbn [le0 cexpr chi sval] in K. exact K.
  - specialize (K _ (or_intror (or_intror (or_intror (or_introl eq_refl))))). cbn [le0 cexpr chi sval] in K. exact K.
Qed.

(* in space *)
Theorem safe3_exact : forall X a0 a1 a2 b vchk rv sd eps x y z ochk ro px py pz tau,
  0 <= tau <= 1 ->
  (forall e, In e [a0; a1; a2; b; eps; x; y; z; px; py; pz] -> fits X e) -> mentions a0 = true ->
  let at_ e := sval (jets X tau) e in
  solved 0 X (le0 (norm3_sx a0 a1 a2) ::
    map (fun c => le0 (veh3_sx a0 a1 a2 b c rv sd eps x y z)) vchk ++
    map (fun c => le0 (obs3_sx a0 a1 a2 b c ro px py pz)) ochk) ->
  forall p q, hull3 (map (plus3 (at_ x, at_ y, at_ z)) vchk) p -> hull3 (map (plus3 (at_ px, at_ py, at_ pz)) ochk) q ->
  rv + ro + (sd - at_ eps) <= dist3 p q.
Proof.
  intros X a0 a1 a2 b vchk rv sd eps x y z ochk ro px py pz tau I F M at_ S p q Hp Hq.
  assert (Z : forall l, solved 0 X l -> forall e, In (le0 e) l -> fits X e -> mentions e = true -> at_ e <= 0).
  { intros l Sl e Hin Fe Me. pose proof (lift_close 0 X (le0 e) tau (Rle_refl 0) Fe Me I (solved_one _ _ _ _ Sl Hin)) as [_ U].
    cbn [le0 chi cexpr] in U. rewrite drift_0 in U. unfold at_. lra. }
  apply (Geom_Proofs4.collision_free3 (at_ a0, at_ a1, at_ a2) (at_ b) vchk rv sd (at_ eps) (at_ x, at_ y, at_ z)
    ochk ro (at_ px, at_ py, at_ pz)); auto.
  - assert (K : at_ (norm3_sx a0 a1 a2) <= 0).
    { apply (Z _ S); [left; reflexivity| |].
      + unfold norm3_sx; cbn [fits]; repeat split; apply F; cbn; tauto.
      + unfold norm3_sx; cbn [mentions]; rewrite M; reflexivity. }
    unfold norm3_sx, at_ in K. cbn [sval] in K. unfold Geom_Model.norm_con3, Geom_Model.dot3, at_. lra.
  - intros c Hi. assert (K : at_ (veh3_sx a0 a1 a2 b c rv sd eps x y z) <= 0).
    { apply (Z _ S); [right; apply in_or_app; left| |].
      + apply (in_map (fun c => le0 (veh3_sx a0 a1 a2 b c rv sd eps x y z))). exact Hi.
      + unfold veh3_sx; cbn [fits]; repeat split; apply F; cbn; tauto.
      + unfold veh3_sx; cbn [mentions]; rewrite M; reflexivity. }
    unfold veh3_sx, at_ in K. cbn [sval] in K. destruct c as [[u v] k].
    unfold Geom_Model.veh_con3, Geom_Model.dot3, Geom_Model.add3, at_. cbn [fst snd] in K. lra.
  - intros c Hi. assert (K : at_ (obs3_sx a0 a1 a2 b c ro px py pz) <= 0).
    { apply (Z _ S); [right; apply in_or_app; right| |].
      + apply (in_map (fun c => le0 (obs3_sx a0 a1 a2 b c ro px py pz))). exact Hi.
      + unfold obs3_sx; cbn [fits]; repeat split; apply F; cbn; tauto.
      + unfold obs3_sx; cbn [mentions]; rewrite M; reflexivity. }
    unfold obs3_sx, at_ in K. cbn [sval] in K. destruct c as [[u v] k].
    unfold Geom_Model.obs_con3, Geom_Model.dot3, Geom_Model.add3, at_. cbn [fst snd] in K. lra.
Qed.
