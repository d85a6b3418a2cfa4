(** Free end time: distance from the plan and safety of the planar holonomic
    vehicle. *)
From Coq Require Import String Reals QArith Qreals ZArith Lra Lia List Arith Bool.
From Coq Require Lqa.
From Verif Require Import Spline_Model Spline_Spec Spline_Proofs3 Splop_Spec Splop_Proofs3 Splop_Proofs4 Vehicle_Model Vehicle_Spec Vehicle_Proofs Vehicle_Proofs2 Quad_Proofs
  Wheel_Proofs Lift_Model Lift_Spec Lift_Proofs Lift_Proofs2 Lift_Proofs3 Lift_Proofs4
  Loop_Model Loop_Spec Loop_Proofs Loop_Proofs2 Loop_Proofs3 Loop_Proofs4 Loop_Proofs5 Loop_Proofs6 Loop_Proofs7 Loop_Proofs8
  Free_Model Free_Spec Free_Proofs Free_Proofs2 Free_Proofs3 Free_Proofs4.
From Verif Require Timing_Model Timing_Proofs Timing_Proofs2 Geom_Spec Geom_Proofs Geom_Proofs3 Obst_Model Obst_Spec Obst_Proofs Obst_Proofs2.
Import ListNotations.
Local Open Scope R_scope.
Local Notation length := List.length.

Lemma free_moves : forall g m nd tol limits goal vchk rv sd s0 i0 obs fs f, paced g m -> consistent g -> (dim g <= 10)%nat ->
  length s0 = dim g -> length i0 = dim g -> legs g fs f ->
  all_found (f_accepted g nd tol limits goal vchk rv sd) g (fs ++ [f]) (world0 s0 i0 obs) ->
  (exists p v, f_moves g m fs f s0 i0 obs p v) /\
  (exists w, after g fs f (world0 s0 i0 obs) = Some w /\
     (now w == inject_Z (Z.of_nat (length fs)) * upd g)%Q /\ (start_time w == 0)%Q) /\
  (forall n f', nth_error (fs ++ [f]) n = Some f' -> exists w1, f_accepted g nd tol limits goal vchk rv sd w1 f' /\
     obstacles w1 = map (obstacle_after g n) obs).
Proof.
  intros g m nd tol limits goal vchk rv sd s0 i0 obs fs f ST CO D LS LI LG AA.
  apply (free_motion g m (f_accepted g nd tol limits goal vchk rv sd)); auto.
  intros w f' TI PF AC. eapply accepted_f_starts; eauto. apply (timely_pos g m f' ST TI).
Qed.

Lemma f_found : forall g m nd tol limits goal vchk rv sd s0 i0 obs fs f, paced g m -> consistent g -> (dim g <= 10)%nat ->
  length s0 = dim g -> length i0 = dim g -> legs g fs f ->
  all_found (f_accepted g nd tol limits goal vchk rv sd) g (fs ++ [f]) (world0 s0 i0 obs) ->
  forall n f', nth_error (fs ++ [f]) n = Some f' -> exists w1, f_accepted g nd tol limits goal vchk rv sd w1 f' /\
     obstacles w1 = map (obstacle_after g n) obs.
Proof.
  intros g m nd tol limits goal vchk rv sd s0 i0 obs fs f ST CO D LS LI LG AA.
  apply (free_moves g m nd tol limits goal vchk rv sd s0 i0 obs fs f ST CO D LS LI LG AA).
Qed.

Lemma f_within_ok : forall g m nd tol b goal vchk rv sd s0 i0 obs fs f, paced g m -> consistent g -> 0 <= tol -> dim g = 2%nat ->
  length s0 = dim g -> length i0 = dim g -> legs g fs f ->
  all_found (f_accepted g nd tol (holonomic_constraints "norm_inf" b) goal vchk rv sd) g (fs ++ [f]) (world0 s0 i0 obs) ->
  let L := holonomic_limits b in
  f_within g (fs ++ [f]) (two (vxmin L) (vymin L)) (two (vxmax L) (vymax L)) (two (axmin L) (aymin L)) (two (axmax L) (aymax L)).
Proof.
  intros g m nd tol b goal vchk rv sd s0 i0 obs fs f ST CO Tt D LS LI LG AA L n f' i t N Hi It.
  destruct (f_found g m nd tol _ goal vchk rv sd s0 i0 obs fs f ST CO ltac:(lia) LS LI LG AA n f' N) as (w1 & AC & _).
  destruct (legs_nth g m fs f n f' ST LG N) as (_ & TI & PF & _).
  apply (f_accepted_limits g m nd tol b goal vchk rv sd w1 f' ST Tt D (timely_pos g m f' ST TI) PF AC i t Hi It).
Qed.

(** speed and acceleration stay within the limits at all times *)
Theorem free_keeps_limits : forall g m nd tol b goal vchk rv sd s0 i0 obs fs f p v, paced g m -> consistent g -> 0 <= tol -> dim g = 2%nat ->
  length s0 = dim g -> length i0 = dim g -> legs g fs f ->
  all_found (f_accepted g nd tol (holonomic_constraints "norm_inf" b) goal vchk rv sd) g (fs ++ [f]) (world0 s0 i0 obs) ->
  f_moves g m fs f s0 i0 obs p v ->
  let L := holonomic_limits b in let E := end_time g m fs f in
  (forall t, 0 <= t <= E -> vxmin L <= v 0%nat t <= vxmax L /\ vymin L <= v 1%nat t <= vymax L) /\
  (forall s t, 0 <= s -> s <= t -> t <= E ->
     axmin L * (t - s) <= v 0%nat t - v 0%nat s <= axmax L * (t - s) /\
     aymin L * (t - s) <= v 1%nat t - v 1%nat s <= aymax L * (t - s)).
Proof.
  intros g m nd tol b goal vchk rv sd s0 i0 obs fs f p v ST CO Tt D LS LI LG AA (w & l & _ & _ & _ & _ & _ & DV & M) L E.
  pose proof (f_within_ok g m nd tol b goal vchk rv sd s0 i0 obs fs f ST CO Tt D LS LI LG AA) as W. cbv zeta in W. fold L in W.
  destruct (free_limits g m fs f p v _ _ _ _ 0%nat ST LG W ltac:(lia) M) as [A0 B0].
  destruct (free_limits g m fs f p v _ _ _ _ 1%nat ST LG W ltac:(lia) M) as [A1 B1].
  unfold two in *. cbn [Nat.eqb] in *. split.
  - intros t It. split; [apply A0, It|apply A1, It].
  - intros s t S1 S2 S3. split; [apply B0; assumption|apply B1; assumption].
Qed.

Theorem free_plan : forall g m nd tol b goal vchk rv sd s0 i0 obs fs f p v, paced g m -> consistent g -> 0 <= tol -> dim g = 2%nat ->
  length s0 = dim g -> length i0 = dim g -> legs g fs f ->
  all_found (f_accepted g nd tol (holonomic_constraints "norm_inf" b) goal vchk rv sd) g (fs ++ [f]) (world0 s0 i0 obs) ->
  f_moves g m fs f s0 i0 obs p v ->
  forall n f' i t, nth_error (fs ++ [f]) n = Some f' -> (i < 2)%nat -> 0 <= t <= INR (count g m f') * Q2R (ts g) ->
  Rabs (p i (at_update g n + t) - fcourse f' 0 i t) <= slip g (holonomic_limits b) i t /\
  Rabs (v i (at_update g n + t) - fcourse f' 1 i t) <= vslip g (holonomic_limits b) i.
Proof.
  intros g m nd tol b goal vchk rv sd s0 i0 obs fs f p v ST CO Tt D LS LI LG AA (w & l & _ & _ & _ & _ & _ & DV & M) n f' i t N Hi It.
  pose proof (f_within_ok g m nd tol b goal vchk rv sd s0 i0 obs fs f ST CO Tt D LS LI LG AA) as W. cbv zeta in W.
  unfold slip, vslip. destruct (ideal_update g) eqn:ID.
  - destruct (M n f' i t N ltac:(lia) It) as [X Y]. rewrite X, Y. unfold Rminus. rewrite !Rplus_opp_r, Rabs_R0. lra.
  - apply (free_deviation g m fs f p v _ _ _ _ n f' i t ST LG W DV M N ltac:(lia) It).
Qed.

Theorem f_avoid_close : forall g m nd tol limits goal vchk rv sd w f k o t, paced g m -> 0 <= tol -> dim g = 2%nat -> timely g f -> proper g f ->
  f_accepted g nd tol limits goal vchk rv sd w f -> nth_error (obstacles w) k = Some o ->
  0 <= t <= Q2R (motion f) ->
  let T := Q2R (motion f) in
  let X := seen (body f) k o 0 T in
  let x := last (Obst_Model.lstate (o_lx o)) Obst_Model.ost0 in
  let y := last (Obst_Model.lstate (o_ly o)) Obst_Model.ost0 in
  exists e, 0 <= e <= Rmax 0 sd /\ forall P Q,
    Geom_Spec.hull (map (Geom_Spec.moved (fcourse f 0 0 t, fcourse f 0 1 t)) vchk) P ->
    Geom_Spec.hull (map (fun c => Geom_Spec.moved
      (Obst_Spec.newton (Obst_Model.ox x) (Obst_Model.ov x) (Obst_Model.oa x) t,
       Obst_Spec.newton (Obst_Model.ox y) (Obst_Model.ov y) (Obst_Model.oa y) t) (Geom_Spec.turned (o_theta o) c)) (o_chk o)) Q ->
    rv + o_rad o + (sd - e) - drift_max tol X (map (veh_side rv sd) vchk) - drift_max tol X (map (obs_side o) (o_chk o))
      <= sqrt (1 + drift tol X (norm_sx (SV 2 0) (SV 3 0))) * Geom_Spec.dist P Q.
Proof.
  intros g m nd tol limits goal vchk rv sd w f k o t ST Tt D TI PA (_ & _ & _ & _ & SA) NO It T X x y.
  specialize (SA k o NO). fold T in SA. fold X in SA.
  pose proof (timely_pos g m f ST TI) as HT. fold T in HT, It.
  pose proof (unit_time t T HT ltac:(lra)) as Q.
  destruct PA as (PA & PP).
  assert (OU : forall i, (i < 8)%nat -> on_unit (X i)).
  { intros i Hi. do 8 (destruct i as [|i]; [unfold X, seen; cbn;
      first [apply PA; lia | apply PP | (split; [exact obasis_clamped|reflexivity])]|]). lia. }
  set (e := sval (jets X (t / T)) (eps_sx sd)).
  exists e. split.
  - unfold e, eps_sx. unfold avoid_cons in SA. unfold Rltb in *. destruct (Rlt_dec 0 sd) as [Hs|Hs].
    + assert (H : holds (jets X (t / T)) (eps_cons sd (SV 5 0))).
      { apply (lift_plain tol); auto.
        - intros c Hc. unfold eps_cons in Hc.
          destruct Hc as [<-|[<-|[]]]; cbn [le0 cexpr fits mentions plain]; split; try (split; reflexivity); try split; try exact Logic.I; try split; try (apply OU; lia); lia.
        - intros c Hc. apply SA. apply in_or_app. right. exact Hc. }
      pose proof (proj2 (H _ (or_introl eq_refl))) as H1. pose proof (proj2 (H _ (or_intror (or_introl eq_refl)))) as H2.
      cbn [le0 cexpr chi sval] in H1, H2 |- *. rewrite Rmax_right by lra. lra.
    + cbn [sval]. rewrite Rmax_left by lra. lra.
  - intros P Qp HP HQ.
    pose proof (safe_close tol X (SV 2 0) (SV 3 0) (SV 4 0) vchk rv sd (eps_sx sd) (SV 0 0) (SV 1 0) (SN 0) 0
      (o_chk o) (o_rad o) (SV 6 0) (SV 7 0) (SN (cos (o_theta o))) (SN (sin (o_theta o))) (SN 1) (t / T) 0 (o_theta o) Tt Q) as K.
    cbv zeta in K. replace (0 / 2) with 0 in K by field. rewrite cos_0, tan_0 in K.
    assert (F : forall f, In f [SV 2 0; SV 3 0; SV 4 0; eps_sx sd; SV 0 0; SV 1 0; SN 0; SV 6 0; SV 7 0; SN (cos (o_theta o)); SN (sin (o_theta o)); SN 1] -> fits X f).
    { intros f0 Hf. unfold eps_sx in Hf. destruct (Rltb 0 sd);
      repeat (destruct Hf as [<-|Hf]; [cbn [fits]; first [exact Logic.I | split; [apply OU; lia|lia]]|]); destruct Hf. }
    specialize (K F eq_refl ltac:(lra) eq_refl). cbn [sval] in K. specialize (K ltac:(lra) ltac:(ring) ltac:(ring)).
    assert (SS : solved tol X (le0 (norm_sx (SV 2 0) (SV 3 0)) :: map le0 (map (veh_side rv sd) vchk) ++ map le0 (map (obs_side o) (o_chk o)))).
    { intros c Hc. apply SA. unfold avoid_cons. rewrite !map_map in Hc. apply in_or_app. left. exact Hc. }
    specialize (K SS).
    assert (J : forall i, jets X (t / T) i 0%nat = call (X i) (t / T)) by reflexivity.
    rewrite !J in K. fold e in K. rewrite over_1 in K.
    specialize (K P Qp). apply K; clear K.
    + erewrite map_ext; [exact HP|]. intros c. rewrite world_moved. unfold fcourse. fold T. cbn [derivative pow].
      rewrite !over_1. reflexivity.
    + erewrite map_ext; [exact HQ|]. intros c. cbv beta. rewrite world_turned. f_equal. unfold X, seen. fold x y.
      rewrite !Obst_Proofs.pos_spline_newton by lra. f_equal; f_equal; ring.
Qed.

(** safety *)
Theorem free_safe : forall g m nd tol b goal vchk rv sd s0 i0 obs fs f p v, paced g m -> consistent g -> 0 <= tol -> dim g = 2%nat ->
  length s0 = dim g -> length i0 = dim g -> legs g fs f ->
  all_found (f_accepted g nd tol (holonomic_constraints "norm_inf" b) goal vchk rv sd) g (fs ++ [f]) (world0 s0 i0 obs) ->
  f_moves g m fs f s0 i0 obs p v ->
  forall n f' k o x0 y0 t x y, nth_error (fs ++ [f]) n = Some f' -> nth_error obs k = Some o -> fresh o x0 y0 ->
  0 <= t <= INR (count g m f') * Q2R (ts g) ->
  let now := at_update g n + t in
  calm o (at_update g n) now ->
  Obst_Spec.moved_to (o_evx o) 0 x0 now x -> Obst_Spec.moved_to (o_evy o) 0 y0 now y ->
  let L := holonomic_limits b in
  let X := seen (body f') k (obstacle_after g n o) 0 (Q2R (motion f')) in
  exists e, 0 <= e <= Rmax 0 sd /\ forall P Q,
    Geom_Spec.hull (map (Geom_Spec.moved (p 0%nat now, p 1%nat now)) vchk) P ->
    Geom_Spec.hull (map (fun c => Geom_Spec.moved (Obst_Model.ox x, Obst_Model.ox y) (Geom_Spec.turned (o_theta o) c)) (o_chk o)) Q ->
    rv + o_rad o + (sd - e) - drift_max tol X (map (veh_side rv sd) vchk) - drift_max tol X (map (obs_side o) (o_chk o))
      <= sqrt (1 + drift tol X (norm_sx (SV 2 0) (SV 3 0))) * (Geom_Spec.dist P Q + slip g L 0 t + slip g L 1 t).
Proof.
  intros g m nd tol b goal vchk rv sd s0 i0 obs fs f p v ST CO Tt D LS LI LG AA MV n f' k o x0 y0 t x y N KO FR It tn CA MX MY L X.
  pose proof (free_plan g m nd tol b goal vchk rv sd s0 i0 obs fs f p v ST CO Tt D LS LI LG AA MV n f') as PL.
  destruct (f_found g m nd tol _ goal vchk rv sd s0 i0 obs fs f ST CO ltac:(lia) LS LI LG AA n f' N) as (w1 & AC & OB).
  destruct (legs_nth g m fs f n f' ST LG N) as (_ & TI & PA & _).
  destruct (count_time g m f' ST TI) as (_ & _ & CT).
  set (o' := obstacle_after g n o) in *.
  assert (NO : nth_error (obstacles w1) k = Some o') by (rewrite OB; apply map_nth_error, KO).
  destruct (f_avoid_close g m nd tol _ goal vchk rv sd w1 f' k o' t ST Tt D TI PA AC NO ltac:(lra)) as (e & E1 & E2).
  fold X in E2. exists e. split; [exact E1|]. intros P Q HP HQ.
  destruct (after_same g n o) as (S1 & S2 & S3 & S4 & S5). fold o' in S1, S2, S3, S4, S5.
  destruct FR as (F1 & F2 & F3). pose proof (Q2R_pos _ (paced_upd g m ST)) as UP.
  assert (N0 : 0 <= at_update g n <= tn) by (unfold tn; split; [apply Rmult_le_pos; [apply pos_INR|lra]|lra]).
  assert (US : forall oo, o_evx (simulate_obstacle g (upd g) oo) = o_evx oo /\ o_evy (simulate_obstacle g (upd g) oo) = o_evy oo) by (intros; split; reflexivity).
  assert (EX : forall j, o_evx (obstacle_after g j o) = o_evx o /\ o_evy (obstacle_after g j o) = o_evy o)
    by (intros j; destruct (after_same g j o) as (_ & _ & _ & Z1 & Z2); split; assumption).
  assert (SM : Z.to_nat (Timing_Model.n_samp (upd g) (ts g)) = m) by (rewrite (proj1 (paced_samples g m ST)); apply Nat2Z.id).
  assert (AX : Obst_Spec.moved_to (o_evx o) 0 x0 (at_update g n) (last (Obst_Model.lstate (o_lx o')) Obst_Model.ost0)).
  { unfold o'. clear - ST F1 F3 EX SM.
    assert (EP : forall ev, In ev (o_evx o) -> 0 < Obst_Model.et ev) by (intros ev Hev; apply F3; left; exact Hev).
    apply (after_state' (fixed g) m n (o_evx o) x0 (fun j => o_lx (obstacle_after g j o)) (fixed_steady g m ST) EP); [exact F1|].
    intros j. cbn [obstacle_after]. unfold simulate_obstacle at 1. cbn [o_lx]. rewrite SM, (proj1 (EX j)). reflexivity. }
  assert (AY : Obst_Spec.moved_to (o_evy o) 0 y0 (at_update g n) (last (Obst_Model.lstate (o_ly o')) Obst_Model.ost0)).
  { unfold o'. clear - ST F2 F3 EX SM.
    assert (EP : forall ev, In ev (o_evy o) -> 0 < Obst_Model.et ev) by (intros ev Hev; apply F3; right; exact Hev).
    apply (after_state' (fixed g) m n (o_evy o) y0 (fun j => o_ly (obstacle_after g j o)) (fixed_steady g m ST) EP); [exact F2|].
    intros j. cbn [obstacle_after]. unfold simulate_obstacle at 1. cbn [o_ly]. rewrite SM, (proj2 (EX j)). reflexivity. }
  assert (OX := obstacle_at (o_evx o) x0 (at_update g n) tn _ x (fun ev H => F3 ev (or_introl H)) N0 AX (fun ev H => CA ev (or_introl H)) MX).
  assert (OY := obstacle_at (o_evy o) y0 (at_update g n) tn _ y (fun ev H => F3 ev (or_intror H)) N0 AY (fun ev H => CA ev (or_intror H)) MY).
  replace (tn - at_update g n) with t in OX, OY by (unfold tn; ring).
  rewrite S1, S2, S3 in E2. rewrite <- OX, <- OY in E2.
  set (d := (fcourse f' 0 0 t - p 0%nat tn, fcourse f' 0 1 t - p 1%nat tn)).
  assert (HP' := hull_shift (p 0%nat tn, p 1%nat tn) d vchk P HP). unfold d in HP'. cbn [fst snd] in HP'.
  replace (p 0%nat tn + (fcourse f' 0 0 t - p 0%nat tn)) with (fcourse f' 0 0 t) in HP' by ring.
  replace (p 1%nat tn + (fcourse f' 0 1 t - p 1%nat tn)) with (fcourse f' 0 1 t) in HP' by ring.
  specialize (E2 _ Q HP' HQ). 
  assert (OBS : map (obs_side o') (o_chk o) = map (obs_side o) (o_chk o)).
  { apply map_ext. intros c. unfold obs_side. rewrite S2, S3. reflexivity. }
  rewrite OBS in E2. eapply Rle_trans; [exact E2|]. apply Rmult_le_compat_l; [apply sqrt_pos|].
  pose proof (dist_shift P d) as DS. unfold d in DS. cbn [fst snd] in DS.
  pose proof (proj1 (PL 0%nat t N ltac:(lia) It)) as P0. pose proof (proj1 (PL 1%nat t N ltac:(lia) It)) as P1. fold tn in P0, P1.
  rewrite Rabs_minus_sym in P0, P1. fold L in P0, P1.
  eapply Rle_trans; [apply (Geom_Proofs3.dist_triangle _ P Q)|]. lra.
Qed.
