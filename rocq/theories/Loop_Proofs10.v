(** The closed loop of the planar holonomic vehicle: limits, distance from the
    plan, safety, arrival, objective. *)
From Coq Require Import String Reals QArith Qreals ZArith Lra Lia List Arith Bool.
From Coq Require Lqa.
From Verif Require Import Spline_Model Spline_Spec Spline_Proofs3 Splop_Spec Vehicle_Model Vehicle_Spec Vehicle_Proofs Vehicle_Proofs2 Quad_Proofs
  Wheel_Proofs Lift_Model Lift_Spec Lift_Proofs Lift_Proofs2 Lift_Proofs3 Lift_Proofs4
  Loop_Model Loop_Spec Loop_Proofs Loop_Proofs2 Loop_Proofs3 Loop_Proofs4 Loop_Proofs5 Loop_Proofs6 Loop_Proofs7 Loop_Proofs8 Loop_Proofs9.
From Verif Require Timing_Model Timing_Proofs Timing_Proofs2 Geom_Spec Geom_Proofs Geom_Proofs3 Obst_Model Obst_Spec Obst_Proofs Obst_Proofs2.
Import ListNotations.
Local Open Scope R_scope.
Local Notation length := List.length.

Theorem loop_moves : forall g m (P : world -> answer -> Prop) s0 i0 obs as_, steady g m -> consistent g ->
  length s0 = dim g -> length i0 = dim g -> as_ <> [] ->
  (forall w a, P w a -> starts_right g w a) -> Forall (proper_answer g) as_ ->
  all_answers P g as_ (world0 s0 i0 obs) ->
  exists p v, moves g m as_ s0 i0 obs p v.
Proof.
  intros g m P s0 i0 obs as_ ST CO LS LI NE PS FA AA.
  destruct (loop_motion g m P s0 i0 obs as_ ST CO LS LI NE PS FA AA) as (w & l & p & v & A & B & C & D & E & F & G & _).
  exists p, v, w, l. repeat (split; [assumption|]). assumption.
Qed.

(** properness may be part of the predicate *)
Definition fine (g : settings) (tol : R) limits goal vchk rv sd (w : world) (a : answer) : Prop :=
  proper_answer g a /\ accepted g tol limits goal vchk rv sd w a.

Lemma fine_starts : forall g m tol limits goal vchk rv sd, steady g m -> (dim g <= 10)%nat ->
  forall w a, fine g tol limits goal vchk rv sd w a -> starts_right g w a.
Proof. intros g m tol limits goal vchk rv sd ST D w a [PA AC]. eapply accepted_starts; eauto. Qed.

Lemma fine_all : forall g tol limits goal vchk rv sd as_ w, Forall (proper_answer g) as_ ->
  all_answers (accepted g tol limits goal vchk rv sd) g as_ w -> all_answers (fine g tol limits goal vchk rv sd) g as_ w.
Proof.
  intros g tol limits goal vchk rv sd as_. induction as_ as [|a as_ IH]; intros w FA H; [exact Logic.I|].
  inversion FA as [|? ? F1 F2]; subst. destruct H as [A B]. split.
  - intros w1 E. split; [exact F1|apply A, E].
  - intros w2 E. apply IH; [exact F2|apply B, E].
Qed.

(** the worlds in which the answers were found *)
Lemma found : forall g m tol limits goal vchk rv sd s0 i0 obs as_, steady g m -> consistent g -> (dim g <= 10)%nat ->
  length s0 = dim g -> length i0 = dim g -> as_ <> [] -> Forall (proper_answer g) as_ ->
  all_answers (accepted g tol limits goal vchk rv sd) g as_ (world0 s0 i0 obs) ->
  forall n a, nth_error as_ n = Some a -> exists w1, fine g tol limits goal vchk rv sd w1 a /\
       (rel g (now w1) (start_time w1) == phase g n)%Q /\ obstacles w1 = map (obstacle_after g n) obs.
Proof.
  intros g m tol limits goal vchk rv sd s0 i0 obs as_ ST CO D LS LI NE FA AA.
  destruct (loop_motion g m (fine g tol limits goal vchk rv sd) s0 i0 obs as_ ST CO LS LI NE
    (fine_starts g m tol limits goal vchk rv sd ST D) FA (fine_all _ _ _ _ _ _ _ _ _ FA AA))
    as (w & l & p & v & _ & _ & _ & _ & _ & _ & _ & _ & W). exact W.
Qed.

Lemma within_ok : forall g m tol b limits goal vchk rv sd s0 i0 obs as_, steady g m -> consistent g -> 0 <= tol -> dim g = 2%nat ->
  length s0 = dim g -> length i0 = dim g -> as_ <> [] -> Forall (proper_answer g) as_ ->
  holonomic_constraints "norm_inf" b (Q2R (horizon g)) = Some limits ->
  all_answers (accepted g tol limits goal vchk rv sd) g as_ (world0 s0 i0 obs) ->
  let L := holonomic_limits b in
  within g as_ (two (vxmin L) (vymin L)) (two (vxmax L) (vymax L)) (two (axmin L) (aymin L)) (two (axmax L) (aymax L)).
Proof.
  intros g m tol b limits goal vchk rv sd s0 i0 obs as_ ST CO Tt D LS LI NE FA HC AA L n a i t N Hi It.
  destruct (found g m tol limits goal vchk rv sd s0 i0 obs as_ ST CO ltac:(lia) LS LI NE FA AA n a N) as (w1 & [PA AC] & RQ & _).
  destruct (phase_bounds g m n ST) as [P1 P2].
  apply (accepted_limits g m tol b limits goal vchk rv sd w1 a (phase g n) ST Tt D PA HC AC P1 P2 i t Hi It).
Qed.

(** speed and acceleration stay within the limits at all times *)
Theorem loop_limits : forall g m tol b limits goal vchk rv sd s0 i0 obs as_ p v, steady g m -> consistent g -> 0 <= tol -> dim g = 2%nat ->
  length s0 = dim g -> length i0 = dim g -> as_ <> [] -> Forall (proper_answer g) as_ ->
  holonomic_constraints "norm_inf" b (Q2R (horizon g)) = Some limits ->
  all_answers (accepted g tol limits goal vchk rv sd) g as_ (world0 s0 i0 obs) ->
  moves g m as_ s0 i0 obs p v ->
  let L := holonomic_limits b in let E := at_update g (length as_) in
  (forall t, 0 <= t <= E -> vxmin L <= v 0%nat t <= vxmax L /\ vymin L <= v 1%nat t <= vymax L) /\
  (forall s t, 0 <= s -> s <= t -> t <= E ->
     axmin L * (t - s) <= v 0%nat t - v 0%nat s <= axmax L * (t - s) /\
     aymin L * (t - s) <= v 1%nat t - v 1%nat s <= aymax L * (t - s)).
Proof.
  intros g m tol b limits goal vchk rv sd s0 i0 obs as_ p v ST CO Tt D LS LI NE FA HC AA (w & l & _ & _ & _ & _ & _ & DV & M) L E.
  pose proof (within_ok g m tol b limits goal vchk rv sd s0 i0 obs as_ ST CO Tt D LS LI NE FA HC AA) as W. cbv zeta in W. fold L in W.
  destruct (motion_limits g m as_ p v _ _ _ _ 0%nat ST FA NE W ltac:(lia) M) as [A0 B0].
  destruct (motion_limits g m as_ p v _ _ _ _ 1%nat ST FA NE W ltac:(lia) M) as [A1 B1].
  unfold two in *. cbn [Nat.eqb] in *. split.
  - intros t It. split; [apply A0, It|apply A1, It].
  - intros s t S1 S2 S3. split; [apply B0; assumption|apply B1; assumption].
Qed.

Theorem loop_plan : forall g m tol b limits goal vchk rv sd s0 i0 obs as_ p v, steady g m -> consistent g -> 0 <= tol -> dim g = 2%nat ->
  length s0 = dim g -> length i0 = dim g -> as_ <> [] -> Forall (proper_answer g) as_ ->
  holonomic_constraints "norm_inf" b (Q2R (horizon g)) = Some limits ->
  all_answers (accepted g tol limits goal vchk rv sd) g as_ (world0 s0 i0 obs) ->
  moves g m as_ s0 i0 obs p v ->
  forall n a i t, nth_error as_ n = Some a -> (i < 2)%nat -> 0 <= t <= Q2R (upd g) ->
  Rabs (p i (at_update g n + t) - course g a (phase g n) 0 i t) <= slip g (holonomic_limits b) i t.
Proof.
  intros g m tol b limits goal vchk rv sd s0 i0 obs as_ p v ST CO Tt D LS LI NE FA HC AA (w & l & _ & _ & _ & _ & _ & DV & M) n a i t N Hi It.
  pose proof (within_ok g m tol b limits goal vchk rv sd s0 i0 obs as_ ST CO Tt D LS LI NE FA HC AA) as W. cbv zeta in W.
  unfold slip. destruct (ideal_update g) eqn:ID.
  - destruct (M n a i t N ltac:(lia) It) as [X _]. rewrite X. unfold Rminus. rewrite Rplus_opp_r, Rabs_R0. lra.
  - apply (deviation g m as_ p v _ _ _ _ n a i t ST FA W DV M N ltac:(lia) It).
Qed.

(** safety *)
Theorem loop_safe : forall g m tol b limits goal vchk rv sd s0 i0 obs as_ p v, steady g m -> consistent g -> 0 <= tol -> dim g = 2%nat ->
  length s0 = dim g -> length i0 = dim g -> as_ <> [] -> Forall (proper_answer g) as_ ->
  holonomic_constraints "norm_inf" b (Q2R (horizon g)) = Some limits ->
  all_answers (accepted g tol limits goal vchk rv sd) g as_ (world0 s0 i0 obs) ->
  moves g m as_ s0 i0 obs p v ->
  forall n a k o x0 y0 t x y, nth_error as_ n = Some a -> nth_error obs k = Some o -> fresh o x0 y0 ->
  0 <= t <= Q2R (upd g) ->
  let now := at_update g n + t in
  calm o (at_update g n) now ->
  Obst_Spec.moved_to (o_evx o) 0 x0 now x -> Obst_Spec.moved_to (o_evy o) 0 y0 now y ->
  let L := holonomic_limits b in
  let X := seen a k (obstacle_after g n o) (Q2R (phase g n)) (Q2R (horizon g)) in
  exists e, 0 <= e <= Rmax 0 sd /\ forall P Q,
    Geom_Spec.hull (map (Geom_Spec.moved (p 0%nat now, p 1%nat now)) vchk) P ->
    Geom_Spec.hull (map (fun c => Geom_Spec.moved (Obst_Model.ox x, Obst_Model.ox y) (Geom_Spec.turned (o_theta o) c)) (o_chk o)) Q ->
    rv + o_rad o + (sd - e) - drift_max tol X (map (veh_side rv sd) vchk) - drift_max tol X (map (obs_side o) (o_chk o))
      <= sqrt (1 + drift tol X (norm_sx (SV 2 0) (SV 3 0))) * (Geom_Spec.dist P Q + slip g L 0 t + slip g L 1 t).
Proof.
  intros g m tol b limits goal vchk rv sd s0 i0 obs as_ p v ST CO Tt D LS LI NE FA HC AA MV n a k o x0 y0 t x y N KO FR It tn CA MX MY L X.
  pose proof (loop_plan g m tol b limits goal vchk rv sd s0 i0 obs as_ p v ST CO Tt D LS LI NE FA HC AA MV n a) as PL.
  destruct (found g m tol limits goal vchk rv sd s0 i0 obs as_ ST CO ltac:(lia) LS LI NE FA AA n a N) as (w1 & [PA AC] & RQ & OB).
  set (o' := obstacle_after g n o) in *.
  assert (NO : nth_error (obstacles w1) k = Some o') by (rewrite OB; apply map_nth_error, KO).
  destruct (avoid_close g m tol limits goal vchk rv sd w1 a k o' n t ST Tt D PA AC NO RQ It) as (e & E1 & E2).
  rewrite (Qeq_eqR _ _ RQ) in E2. fold X in E2. exists e. split; [exact E1|]. intros P Q HP HQ.
  destruct (after_same g n o) as (S1 & S2 & S3 & S4 & S5). fold o' in S1, S2, S3, S4, S5.
  destruct FR as (F1 & F2 & F3). pose proof (Q2R_pos _ (upd_pos g m ST)) as UP.
  assert (N0 : 0 <= at_update g n <= tn) by (unfold tn; split; [apply Rmult_le_pos; [apply pos_INR|lra]|lra]).
  assert (US : forall oo, o_evx (simulate_obstacle g (upd g) oo) = o_evx oo /\ o_evy (simulate_obstacle g (upd g) oo) = o_evy oo) by (intros; split; reflexivity).
  assert (EX : forall j, o_evx (obstacle_after g j o) = o_evx o /\ o_evy (obstacle_after g j o) = o_evy o)
    by (intros j; destruct (after_same g j o) as (_ & _ & _ & Z1 & Z2); split; assumption).
  assert (SM : Z.to_nat (Timing_Model.n_samp (upd g) (ts g)) = m) by (rewrite (proj1 (upd_samples g m ST)); apply Nat2Z.id).
  assert (AX : Obst_Spec.moved_to (o_evx o) 0 x0 (at_update g n) (last (Obst_Model.lstate (o_lx o')) Obst_Model.ost0)).
  { unfold o'. clear - ST F1 F3 EX SM.
    assert (EP : forall ev, In ev (o_evx o) -> 0 < Obst_Model.et ev) by (intros ev Hev; apply F3; left; exact Hev).
    apply (after_state' g m n (o_evx o) x0 (fun j => o_lx (obstacle_after g j o)) ST EP); [exact F1|].
    intros j. cbn [obstacle_after]. unfold simulate_obstacle at 1. cbn [o_lx]. rewrite SM, (proj1 (EX j)). reflexivity. }
  assert (AY : Obst_Spec.moved_to (o_evy o) 0 y0 (at_update g n) (last (Obst_Model.lstate (o_ly o')) Obst_Model.ost0)).
  { unfold o'. clear - ST F2 F3 EX SM.
    assert (EP : forall ev, In ev (o_evy o) -> 0 < Obst_Model.et ev) by (intros ev Hev; apply F3; right; exact Hev).
    apply (after_state' g m n (o_evy o) y0 (fun j => o_ly (obstacle_after g j o)) ST EP); [exact F2|].
    intros j. cbn [obstacle_after]. unfold simulate_obstacle at 1. cbn [o_ly]. rewrite SM, (proj2 (EX j)). reflexivity. }
  assert (OX := obstacle_at (o_evx o) x0 (at_update g n) tn _ x (fun ev H => F3 ev (or_introl H)) N0 AX (fun ev H => CA ev (or_introl H)) MX).
  assert (OY := obstacle_at (o_evy o) y0 (at_update g n) tn _ y (fun ev H => F3 ev (or_intror H)) N0 AY (fun ev H => CA ev (or_intror H)) MY).
  replace (tn - at_update g n) with t in OX, OY by (unfold tn; ring).
  rewrite S1, S2, S3 in E2. rewrite <- OX, <- OY in E2.
  set (d := (course g a (phase g n) 0 0 t - p 0%nat tn, course g a (phase g n) 0 1 t - p 1%nat tn)).
  assert (HP' := hull_shift (p 0%nat tn, p 1%nat tn) d vchk P HP). unfold d in HP'. cbn [fst snd] in HP'.
  replace (p 0%nat tn + (course g a (phase g n) 0 0 t - p 0%nat tn)) with (course g a (phase g n) 0 0 t) in HP' by ring.
  replace (p 1%nat tn + (course g a (phase g n) 0 1 t - p 1%nat tn)) with (course g a (phase g n) 0 1 t) in HP' by ring.
  specialize (E2 _ Q HP' HQ). 
  assert (OBS : map (obs_side o') (o_chk o) = map (obs_side o) (o_chk o)).
  { apply map_ext. intros c. unfold obs_side. rewrite S2, S3. reflexivity. }
  rewrite OBS in E2. eapply Rle_trans; [exact E2|]. apply Rmult_le_compat_l; [apply sqrt_pos|].
  pose proof (dist_shift P d) as DS. unfold d in DS. cbn [fst snd] in DS.
  pose proof (PL 0%nat t N ltac:(lia) It) as P0. pose proof (PL 1%nat t N ltac:(lia) It) as P1. fold tn in P0, P1.
  rewrite Rabs_minus_sym in P0, P1. fold L in P0, P1.
  eapply Rle_trans; [apply (Geom_Proofs3.dist_triangle _ P Q)|]. lra.
Qed.
