(** Safety of the closed loop. *)
From Coq Require Import String Reals QArith Qreals ZArith Lra Lia List Arith Bool.
From Coq Require Lqa.
From Verif Require Import Spline_Model Spline_Spec Spline_Proofs3 Splop_Spec Splop_Proofs3 Splop_Proofs4 Vehicle_Model Vehicle_Spec Vehicle_Proofs Vehicle_Proofs2 Quad_Proofs
  Wheel_Proofs Lift_Model Lift_Spec Lift_Proofs Lift_Proofs2 Lift_Proofs3 Lift_Proofs4
  Loop_Model Loop_Spec Loop_Proofs Loop_Proofs2 Loop_Proofs3 Loop_Proofs4 Loop_Proofs5 Loop_Proofs6 Loop_Proofs7.
From Verif Require Timing_Model Timing_Proofs Timing_Proofs2 Geom_Spec Geom_Proofs Geom_Proofs3 Obst_Model Obst_Spec Obst_Proofs Obst_Proofs2.
Import ListNotations.
Local Open Scope R_scope.

(** ** obstacles between two updates *)
Lemma after_same : forall g n o, o_chk (obstacle_after g n o) = o_chk o /\ o_rad (obstacle_after g n o) = o_rad o /\
  o_theta (obstacle_after g n o) = o_theta o /\ o_evx (obstacle_after g n o) = o_evx o /\ o_evy (obstacle_after g n o) = o_evy o.
Proof. intros g n o. induction n as [|n IH]; [repeat split|]. cbn. exact IH. Qed.

Lemma last_app : forall {A} (l k : list A) d, k <> [] -> last (l ++ k) d = last k d.
Proof.
  intros A l k d K. induction l as [|x l IH]; [reflexivity|]. cbn [app]. 
  destruct (l ++ k) eqn:E; [apply app_eq_nil in E; tauto|]. rewrite <- E in *. cbn. rewrite E. rewrite <- E. exact IH.
Qed.

Lemma simulate_last : forall evs m dt l, (1 <= m)%nat ->
  last (Obst_Model.ltime (Obst_Model.simulate evs m dt l)) 0 = last (Obst_Model.ltime l) 0 + INR m * dt.
Proof.
  intros evs m dt l M. unfold Obst_Model.simulate. cbn [Obst_Model.ltime].
  replace m with (m - 1 + 1)%nat at 1 by lia. rewrite seq_app, map_app, app_assoc. cbn [seq map].
  rewrite last_app by discriminate. cbn [last]. replace (1 + (m - 1))%nat with m by lia. reflexivity.
Qed.

Lemma after_state' : forall g m n evs x (l : nat -> Obst_Model.olog), steady g m ->
  (forall e, In e evs -> 0 < Obst_Model.et e) -> l 0%nat = Obst_Model.log0 x ->
  (forall j, l (S j) = Obst_Model.simulate evs m (Q2R (ts g)) (l j)) ->
  Obst_Spec.moved_to evs 0 x (at_update g n) (last (Obst_Model.lstate (l n)) Obst_Model.ost0).
Proof.
  intros g m n evs x l ST EP L0 SI. pose proof (Q2R_pos _ (proj1 ST)) as HP.
  pose proof (upd_real g m ST) as UR. assert (M1 : (1 <= m)%nat) by apply ST.
  assert (I : Obst_Proofs2.on_motion evs x (l n) /\ last (Obst_Model.ltime (l n)) 0 = at_update g n).
  { induction n as [|n IH].
    - rewrite L0. split; [apply Obst_Proofs2.log0_on_motion, EP|]. unfold at_update. cbn. ring.
    - rewrite SI. destruct IH as [A B]. split; [apply Obst_Proofs2.simulate_on_motion; auto; lra|].
      rewrite simulate_last by exact M1. rewrite B. unfold at_update. rewrite S_INR, UR. ring. }
  destruct I as [(A & B & _ & C) D]. rewrite Obst_Proofs2.last_nth in D |- *. rewrite A in D.
  specialize (C (List.length (Obst_Model.lstate (l n)) - 1)%nat). rewrite <- D. apply C.
  destruct (Obst_Model.ltime (l n)); [congruence|]. cbn [List.length] in A |- *. lia.
Qed.

Lemma calm_newton : forall evs t0 s t s', (forall e, In e evs -> ~ (t0 < Obst_Model.et e <= t)) -> Obst_Spec.moved_to evs t0 s t s' ->
  Obst_Model.ox s' = Obst_Spec.newton (Obst_Model.ox s) (Obst_Model.ov s) (Obst_Model.oa s) (t - t0).
Proof.
  intros evs t0 s t s' C M.
  assert (N : Obst_Spec.moved_to evs t0 s t (Obst_Model.mkO (Obst_Spec.newton (Obst_Model.ox s) (Obst_Model.ov s) (Obst_Model.oa s) (t - t0))
     (Obst_Model.ov s + Obst_Model.oa s * (t - t0)) (Obst_Model.oa s))).
  { clear M. induction evs as [|e evs IH]; [constructor|]. apply Obst_Spec.moved_other; [apply C; left; reflexivity|].
    apply IH. intros e' He'. apply C. right. exact He'. }
  rewrite (Obst_Proofs2.moved_unique _ _ _ _ _ _ M N). reflexivity.
Qed.

Lemma obstacle_at : forall evs x t1 t s1 s2, (forall e, In e evs -> 0 < Obst_Model.et e) -> 0 <= t1 <= t ->
  Obst_Spec.moved_to evs 0 x t1 s1 -> (forall e, In e evs -> ~ (t1 < Obst_Model.et e <= t)) -> Obst_Spec.moved_to evs 0 x t s2 ->
  Obst_Model.ox s2 = Obst_Spec.newton (Obst_Model.ox s1) (Obst_Model.ov s1) (Obst_Model.oa s1) (t - t1).
Proof.
  intros evs x t1 t s1 s2 EP I M1 C M2.
  pose proof (Obst_Proofs2.moved_motion evs t1 s1 t) as M.
  pose proof (Obst_Proofs2.moved_compose evs 0 x t1 s1 t _ I M1 M) as M'.
  rewrite (Obst_Proofs2.moved_unique _ _ _ _ _ _ M2 M'). apply (calm_newton evs t1 s1 t _ C M).
Qed.

(** ** what an accepted answer means for one obstacle *)
Lemma over_1 : forall x, x / 1 = x.
Proof. intros. field. Qed.
Lemma world_moved : forall z c, Geom_Spec.world z 0 0 c = Geom_Spec.moved z c.
Proof. intros [z1 z2] [c1 c2]. unfold Geom_Spec.world, Geom_Spec.moved, Geom_Spec.turned. cbn [fst snd]. rewrite cos_0, sin_0. f_equal; ring. Qed.
Lemma world_turned : forall z th c, Geom_Spec.world z th 0 c = Geom_Spec.moved z (Geom_Spec.turned th c).
Proof. intros [z1 z2] th [c1 c2]. unfold Geom_Spec.world, Geom_Spec.moved, Geom_Spec.turned. cbn [fst snd]. f_equal; ring. Qed.

Theorem avoid_close : forall g m tol limits goal vchk rv sd w a k o n t, steady g m -> 0 <= tol -> dim g = 2%nat -> proper_answer g a ->
  accepted g tol limits goal vchk rv sd w a -> nth_error (obstacles w) k = Some o ->
  (rel g (now w) (start_time w) == phase g n)%Q -> 0 <= t <= Q2R (upd g) ->
  let T := Q2R (horizon g) in
  let r := Q2R (rel g (now w) (start_time w)) in
  let X := seen a k o r T in
  let x := last (Obst_Model.lstate (o_lx o)) Obst_Model.ost0 in
  let y := last (Obst_Model.lstate (o_ly o)) Obst_Model.ost0 in
  exists e, 0 <= e <= Rmax 0 sd /\ forall P Q,
    Geom_Spec.hull (map (Geom_Spec.moved (course g a (phase g n) 0 0 t, course g a (phase g n) 0 1 t)) vchk) P ->
    Geom_Spec.hull (map (fun c => Geom_Spec.moved
      (Obst_Spec.newton (Obst_Model.ox x) (Obst_Model.ov x) (Obst_Model.oa x) t,
       Obst_Spec.newton (Obst_Model.ox y) (Obst_Model.ov y) (Obst_Model.oa y) t) (Geom_Spec.turned (o_theta o) c)) (o_chk o)) Q ->
    rv + o_rad o + (sd - e) - drift_max tol X (map (veh_side rv sd) vchk) - drift_max tol X (map (obs_side o) (o_chk o))
      <= sqrt (1 + drift tol X (norm_sx (SV 2 0) (SV 3 0))) * Geom_Spec.dist P Q.
Proof.
  intros g m tol limits goal vchk rv sd w a k o n t ST Tt D PA (_ & _ & _ & SA) NO RQ It T r X x y.
  specialize (SA k o NO). fold T in SA. fold r in SA. fold X in SA.
  destruct (phase_bounds g m n ST) as [R1 R2]. pose proof (horizon_pos g m ST) as HT. fold T in HT.
  assert (RP : r = Q2R (phase g n)) by (apply Qeq_eqR, RQ).
  apply Q2R_nonneg in R1. apply Qle_Rle in R2. rewrite Q2R_plus in R2. fold T in R2. rewrite <- RP in R1, R2.
  pose proof (unit_time (r + t) T HT ltac:(lra)) as Q.
  destruct PA as (PA & PS & PP).
  assert (OU : forall i, (i < 8)%nat -> on_unit (X i)).
  { intros i Hi. do 8 (destruct i as [|i]; [unfold X, seen; cbn;
      first [apply PA; lia | apply PP | (split; [exact obasis_clamped|reflexivity])]|]). lia. }
  set (e := sval (jets X ((r + t) / T)) (eps_sx sd)).
  exists e. split.
  - unfold e, eps_sx. unfold avoid_cons in SA. unfold Rltb in *. destruct (Rlt_dec 0 sd) as [Hs|Hs].
    + assert (H : holds (jets X ((r + t) / T)) (eps_cons sd (SV 5 0))).
      { apply (lift_plain tol); auto.
        - intros c Hc. unfold eps_cons in Hc.
          destruct Hc as [<-|[<-|[]]]; cbn [le0 cexpr fits mentions plain]; split; try (split; reflexivity); try split; try exact Logic.I; try split; try (apply OU; lia); lia.
        - intros c Hc. apply SA. apply in_or_app. right. exact Hc. }
      pose proof (proj2 (H _ (or_introl eq_refl))) as H1. pose proof (proj2 (H _ (or_intror (or_introl eq_refl)))) as H2.
      cbn [le0 cexpr chi sval] in H1, H2 |- *. rewrite Rmax_right by lra. lra.
    + cbn [sval]. rewrite Rmax_left by lra. lra.
  - intros P Qp HP HQ.
    pose proof (safe_close tol X (SV 2 0) (SV 3 0) (SV 4 0) vchk rv sd (eps_sx sd) (SV 0 0) (SV 1 0) (SN 0) 0
      (o_chk o) (o_rad o) (SV 6 0) (SV 7 0) (SN (cos (o_theta o))) (SN (sin (o_theta o))) (SN 1) ((r + t) / T) 0 (o_theta o) Tt Q) as K.
    cbv zeta in K. replace (0 / 2) with 0 in K by field. rewrite cos_0, tan_0 in K.
    assert (F : forall f, In f [SV 2 0; SV 3 0; SV 4 0; eps_sx sd; SV 0 0; SV 1 0; SN 0; SV 6 0; SV 7 0; SN (cos (o_theta o)); SN (sin (o_theta o)); SN 1] -> fits X f).
    { intros f Hf. unfold eps_sx in Hf. destruct (Rltb 0 sd);
      repeat (destruct Hf as [<-|Hf]; [cbn [fits]; first [exact Logic.I | split; [apply OU; lia|lia]]|]); destruct Hf. }
    specialize (K F eq_refl ltac:(lra) eq_refl). cbn [sval] in K. specialize (K ltac:(lra) ltac:(ring) ltac:(ring)).
    assert (SS : solved tol X (le0 (norm_sx (SV 2 0) (SV 3 0)) :: map le0 (map (veh_side rv sd) vchk) ++ map le0 (map (obs_side o) (o_chk o)))).
    { intros c Hc. apply SA. unfold avoid_cons. rewrite !map_map in Hc. apply in_or_app. left. exact Hc. }
    specialize (K SS).
    assert (J : forall i, jets X ((r + t) / T) i 0%nat = call (X i) ((r + t) / T)) by reflexivity.
    rewrite !J in K. fold e in K. rewrite over_1 in K.
    specialize (K P Qp). apply K; clear K.
    + erewrite map_ext; [exact HP|]. intros c. rewrite world_moved. unfold course. fold T. rewrite <- RP. cbn [derivative pow].
      rewrite !over_1. reflexivity.
    + erewrite map_ext; [exact HQ|]. intros c. cbv beta. rewrite world_turned. f_equal. unfold X, seen. fold x y.
      rewrite !Obst_Proofs.pos_spline_newton by lra. f_equal; f_equal; ring.
Qed.

(** ** the vehicle where it really is *)
Lemma hull_shift : forall z d l P, Geom_Spec.hull (map (Geom_Spec.moved z) l) P ->
  Geom_Spec.hull (map (Geom_Spec.moved (fst z + fst d, snd z + snd d)) l) (fst P + fst d, snd P + snd d).
Proof.
  intros z d l P H. induction H as [v Hv|s p q Is Hp IHp Hq IHq].
  - apply in_map_iff in Hv. destruct Hv as (c & <- & Hc). apply Geom_Spec.hull_vertex, in_map_iff. exists c. split; [|exact Hc].
    unfold Geom_Spec.moved. cbn [fst snd]. f_equal; ring.
  - replace (fst (Geom_Spec.between s p q) + fst d, snd (Geom_Spec.between s p q) + snd d) with
      (Geom_Spec.between s (fst p + fst d, snd p + snd d) (fst q + fst d, snd q + snd d)).
    + apply Geom_Spec.hull_mix; assumption.
    + unfold Geom_Spec.between. cbn [fst snd]. f_equal; ring.
Qed.

Lemma dist_shift : forall P d, Geom_Spec.dist (fst P + fst d, snd P + snd d) P <= Rabs (fst d) + Rabs (snd d).
Proof.
  intros P d. apply Geom_Proofs.dist_le_iff; [pose proof (Rabs_pos (fst d)); pose proof (Rabs_pos (snd d)); lra|].
  cbn [fst snd]. unfold Rsqr. replace (fst P + fst d - fst P) with (fst d) by ring. replace (snd P + snd d - snd P) with (snd d) by ring.
  pose proof (Rabs_pos (fst d)). pose proof (Rabs_pos (snd d)).
  assert (forall z, z * z = Rabs z * Rabs z) as E by (intros z; rewrite <- Rabs_mult, Rabs_pos_eq; [reflexivity|nra]).
  rewrite (E (fst d)), (E (snd d)). nra.
Qed.
