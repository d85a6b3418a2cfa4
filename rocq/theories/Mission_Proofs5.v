(** Limits, safety and objective of the runs of a mission; the steps in its log. *)
From Coq Require Import String Reals QArith Qround Qreals ZArith Lra Lia List Arith Bool.
From Coq Require Lqa.
From Verif Require Import Spline_Model Spline_Spec Splop_Spec Vehicle_Model Vehicle_Spec Vehicle_Proofs Lift_Model Lift_Spec
  Loop_Model Loop_Spec Loop_Proofs Loop_Proofs2 Loop_Proofs3 Loop_Proofs4 Loop_Proofs8 Loop_Proofs9 Loop_Proofs10 Loop_Proofs11 Mission_Model Mission_Spec Mission_Proofs Mission_Proofs2 Mission_Proofs3 Mission_Proofs4.
From Verif Require Grid_Proofs Grid_Model Timing_Model Timing_Proofs Timing_Proofs2 Obst_Model Obst_Spec Obst_Proofs2 Geom_Spec Geom_Proofs3.
Import ListNotations.
Local Open Scope R_scope.
Local Notation length := List.length.

Lemma run_answers : forall g m tol limits goal vchk rv sd as_ s x i k, steady g m -> (dim g <= 10)%nat -> placed g s x i ->
  fair g tol limits vchk rv sd (Drive goal as_) s -> (k < length as_)%nat ->
  let bs := firstn (S k) as_ in
  bs <> [] /\ Forall (proper_answer g) bs /\ length bs = S k /\
  all_answers (accepted g tol limits goal vchk rv sd) g bs (world0 x i (obstacles (world_of s))).
Proof.
  intros g m tol limits goal vchk rv sd as_ s x i k ST DM PL [FA AA] KL bs.
  assert (LB : length bs = S k) by (unfold bs; rewrite firstn_length; lia).
  split; [intros C; rewrite C in LB; discriminate|]. split; [|split; [exact LB|]].
  - rewrite Forall_forall in FA |- *. intros a Ha. apply FA. rewrite <- (firstn_skipn (S k) as_). apply in_or_app. left. exact Ha.
  - apply (all_prefix _ g bs (skipn (S k) as_)). unfold bs. rewrite firstn_skipn.
    assert (Q : all_answers (fine g tol limits goal vchk rv sd) g as_ (world0 x i (obstacles (world_of s)))).
    { apply (drive_answers g m (fine g tol limits goal vchk rv sd)); try assumption.
      - apply (fine_starts g m); assumption.
      - apply fine_timeless.
      - apply fine_all; assumption. }
    clear - Q. revert Q. generalize (world0 x i (obstacles (world_of s))). induction as_ as [|a r IH]; intros w Q; [exact Logic.I|].
    destruct Q as [Q1 Q2]. split; [intros w1 H; apply (Q1 w1 H)|intros w2 H; apply IH, Q2, H].
Qed.

Section Mission.
Variables (g : settings) (m : nat) (stol tol : R) (b : hbounds) (limits : list con) (vchk : list (R * R)) (rv sd : R).
Hypothesis ST : steady g m.
Hypothesis CO : consistent g.
Hypothesis D : dim g = 2%nat.
Hypothesis HC : holonomic_constraints "norm_inf" b (Q2R (horizon g)) = Some limits.

Theorem mission_limits : forall legs x0 i0 obs s goal as_ s' x i k p v, 0 <= tol -> reaches g stol tol limits vchk rv sd legs x0 i0 obs s ->
  fair g tol limits vchk rv sd (Drive goal as_) s -> placed g s x i -> travels g m k as_ s s' x i p v ->
  let L := holonomic_limits b in let E := at_update g (S k) in
  (forall t, 0 <= t <= E -> vxmin L <= v 0%nat t <= vxmax L /\ vymin L <= v 1%nat t <= vymax L) /\
  (forall t u, 0 <= t -> t <= u -> u <= E ->
     axmin L * (u - t) <= v 0%nat u - v 0%nat t <= axmax L * (u - t) /\
     aymin L * (u - t) <= v 1%nat u - v 1%nat t <= aymax L * (u - t)).
Proof.
  intros legs x0 i0 obs s goal as_ s' x i k p v Tt RC FR PL (KL & MV & _) L E.
  destruct (run_answers g m tol limits goal vchk rv sd as_ s x i k ST ltac:(lia) PL FR KL) as (NE & FA & LB & AA).
  pose proof (loop_limits g m tol b limits goal vchk rv sd x i (obstacles (world_of s)) (firstn (S k) as_) p v ST CO Tt D
    (proj1 PL) (proj1 (proj2 PL)) NE FA HC AA MV) as H. rewrite LB in H. exact H.
Qed.

(** safety: obstacles have moved on during the earlier legs *)
Theorem mission_safe : forall legs x0 i0 obs s goal as_ s' x i k p v, 0 <= tol -> stol < 1 -> reaches g stol tol limits vchk rv sd legs x0 i0 obs s ->
  fair g tol limits vchk rv sd (Drive goal as_) s -> placed g s x i -> travels g m k as_ s s' x i p v ->
  forall n a j o ox0 oy0 t ox oy, (n <= k)%nat -> nth_error as_ n = Some a -> nth_error obs j = Some o -> fresh o ox0 oy0 ->
  0 <= t <= Q2R (upd g) ->
  let past := INR (samples s) * Q2R (ts g) in
  calm o (past + at_update g n) (past + at_update g n + t) ->
  Obst_Spec.moved_to (o_evx o) 0 ox0 (past + at_update g n + t) ox -> Obst_Spec.moved_to (o_evy o) 0 oy0 (past + at_update g n + t) oy ->
  let L := holonomic_limits b in
  exists o' e, nth_error (obstacles (world_of s)) j = Some o' /\ 0 <= e <= Rmax 0 sd /\
  let X := seen a j (obstacle_after g n o') (Q2R (phase g n)) (Q2R (horizon g)) in
  forall P Q,
    Geom_Spec.hull (map (Geom_Spec.moved (p 0%nat (at_update g n + t), p 1%nat (at_update g n + t))) vchk) P ->
    Geom_Spec.hull (map (fun c => Geom_Spec.moved (Obst_Model.ox ox, Obst_Model.ox oy) (Geom_Spec.turned (o_theta o) c)) (o_chk o)) Q ->
    rv + o_rad o + (sd - e) - drift_max tol X (map (veh_side rv sd) vchk) - drift_max tol X (map (obs_side o) (o_chk o))
      <= sqrt (1 + drift tol X (norm_sx (SV 2 0) (SV 3 0))) * (Geom_Spec.dist P Q + slip g L 0 t + slip g L 1 t).
Proof.
  intros legs x0 i0 obs s goal as_ s' x i k p v Tt T1 RC FR PL (KL & MV & _) n a j o ox0 oy0 t ox oy NK NA JO FO It past CA MX MY L.
  destruct (reaches_kept g m stol tol limits vchk rv sd ST CO T1 ltac:(lia) legs x0 i0 obs s RC) as [[_ KF] _].
  assert (FJ : exists o', nth_error (obstacles (world_of s)) j = Some o' /\ followed g (samples s) o o').
  { clear - KF JO. revert j JO. induction KF as [|y y' r r' H H2 IH]; intros j JO; [destruct j; discriminate|].
    destruct j as [|j]; [injection JO as <-; exists y'; split; [reflexivity|exact H]|apply (IH j JO)]. }
  destruct FJ as (o' & NO & FW).
  destruct (run_answers g m tol limits goal vchk rv sd as_ s x i k ST ltac:(lia) PL FR KL) as (NE & FA & LB & AA).
  set (bs := firstn (S k) as_) in *.
  assert (NB : nth_error bs n = Some a).
  { unfold bs. rewrite <- NA. rewrite <- (firstn_skipn (S k) as_) at 2. rewrite nth_error_app1; [reflexivity|]. fold bs. lia. }
  pose proof (loop_plan g m tol b limits goal vchk rv sd x i (obstacles (world_of s)) bs p v ST CO Tt D (proj1 PL) (proj1 (proj2 PL)) NE FA HC AA MV n a) as PLN.
  destruct (found g m tol limits goal vchk rv sd x i (obstacles (world_of s)) bs ST CO ltac:(lia) (proj1 PL) (proj1 (proj2 PL)) NE FA AA n a NB) as (w1 & [PA AC] & RQ & OB).
  set (o2 := obstacle_after g n o') in *.
  assert (NO2 : nth_error (obstacles w1) j = Some o2) by (rewrite OB; apply map_nth_error, NO).
  destruct (avoid_close g m tol limits goal vchk rv sd w1 a j o2 n t ST Tt D PA AC NO2 RQ It) as (e & E1 & E2).
  rewrite (Qeq_eqR _ _ RQ) in E2. exists o', e. split; [exact NO|]. split; [exact E1|]. intros X P Q HP HQ. fold X in E2.
  assert (FW2 : followed g (samples s + n * m) o o2) by (apply followed_after; assumption).
  pose proof (followed_state g (samples s + n * m) o o2 ox0 oy0 FW2 FO) as [AX AY].
  destruct FW2 as ((S1 & S2 & S3 & S4 & S5) & _). destruct FO as (_ & _ & F3).
  pose proof (Q2R_pos _ (upd_pos g m ST)) as UP. pose proof (Q2R_pos _ (proj1 ST)) as TP.
  assert (UR : Q2R (upd g) = INR m * Q2R (ts g)).
  { destruct ST as (_ & _ & S & _). rewrite (Qeq_eqR _ _ S), Q2R_mult. f_equal. rewrite INR_IZR_INZ. unfold Q2R, inject_Z. cbn. field. }
  assert (TT : INR (samples s + n * m) * Q2R (ts g) = past + at_update g n).
  { unfold past, at_update. rewrite plus_INR, mult_INR, UR. ring. }
  rewrite TT in AX, AY. set (now0 := past + at_update g n) in *. set (tn := now0 + t) in *.
  assert (N0 : 0 <= now0 <= tn).
  { unfold tn, now0, past, at_update. split; [|lra]. apply Rplus_le_le_0_compat; apply Rmult_le_pos; try apply pos_INR; lra. }
  assert (OX := obstacle_at (o_evx o) ox0 now0 tn _ ox (fun ev H => F3 ev (or_introl H)) N0 AX (fun ev H => CA ev (or_introl H)) MX).
  assert (OY := obstacle_at (o_evy o) oy0 now0 tn _ oy (fun ev H => F3 ev (or_intror H)) N0 AY (fun ev H => CA ev (or_intror H)) MY).
  replace (tn - now0) with t in OX, OY by (unfold tn; ring).
  rewrite S1, S2, S3 in E2. rewrite <- OX, <- OY in E2.
  set (pn := at_update g n + t) in *.
  set (d := (course g a (phase g n) 0 0 t - p 0%nat pn, course g a (phase g n) 0 1 t - p 1%nat pn)).
  assert (HP' := hull_shift (p 0%nat pn, p 1%nat pn) d vchk P HP). unfold d in HP'. cbn [fst snd] in HP'.
  replace (p 0%nat pn + (course g a (phase g n) 0 0 t - p 0%nat pn)) with (course g a (phase g n) 0 0 t) in HP' by ring.
  replace (p 1%nat pn + (course g a (phase g n) 0 1 t - p 1%nat pn)) with (course g a (phase g n) 0 1 t) in HP' by ring.
  specialize (E2 _ Q HP' HQ).
  assert (OBS : map (obs_side o2) (o_chk o) = map (obs_side o) (o_chk o)).
  { apply map_ext. intros c. unfold obs_side. rewrite S2, S3. reflexivity. }
  rewrite OBS in E2. eapply Rle_trans; [exact E2|]. apply Rmult_le_compat_l; [apply sqrt_pos|].
  pose proof (dist_shift P d) as DS. unfold d in DS. cbn [fst snd] in DS.
  pose proof (PLN 0%nat t NB ltac:(lia) It) as P0. pose proof (PLN 1%nat t NB ltac:(lia) It) as P1. fold pn in P0, P1.
  rewrite Rabs_minus_sym in P0, P1. fold L in P0, P1.
  eapply Rle_trans; [apply (Geom_Proofs3.dist_triangle _ P Q)|]. lra.
Qed.

(** the reported objective grows in each run by what bounds the distances to the goal of that run *)
Theorem mission_cost : forall legs x0 i0 obs s goal as_ s' x i k p v, stol < 1 -> reaches g stol 0 limits vchk rv sd legs x0 i0 obs s ->
  fair g 0 limits vchk rv sd (Drive goal as_) s -> drive g stol goal as_ s = Some s' -> placed g s x i -> travels g m k as_ s s' x i p v ->
  forall I : nat -> R -> R, let E := at_update g (S k) in
  (forall i t, (i < 2)%nat -> 0 <= t <= E -> deriv_in 0 E (I i) t (Rabs (p i t - nth i goal 0))) ->
  let L := holonomic_limits b in let U := Q2R (upd g) in
  I 0%nat E - I 0%nat 0 + (I 1%nat E - I 1%nat 0) <= cost s' - cost s + INR (S k) * (U / 2 * (slip g L 0 U + slip g L 1 U)).
Proof.
  intros legs x0 i0 obs s goal as_ s' x i k p v T1 RC FR DR PL TR I E DI L U.
  destruct (drive_facts g m stol 0 limits vchk rv sd ST CO T1 ltac:(lia) goal as_ s s' x i PL FR DR) as (k' & p' & v' & TR' & _ & _ & _ & CS & _).
  assert (KK : k' = k).
  { destruct TR as (_ & _ & l0 & l & E1 & E2 & _ & E4). destruct TR' as (_ & _ & l0' & l' & E1' & E2' & _ & E4').
    rewrite E1 in E1'. injection E1' as EQ.
    assert (LL : length l0 = length l0').
    { destruct E4 as [E4|(E4 & E5 & _)], E4' as [E4'|(E4' & E5' & _)]; rewrite E4 in E4'; try discriminate; [injection E4' as ->; reflexivity|lia]. }
    assert (length (l0 ++ l) = length (l0' ++ l')) as LE by (rewrite EQ; reflexivity). rewrite !app_length in LE. destruct ST as (_ & M1 & _).
    assert (X : (S k * m = S k' * m)%nat) by lia. apply Nat.mul_cancel_r in X; lia. }
  subst k'. pose proof TR as (KL & MV & _).
  destruct (run_answers g m 0 limits goal vchk rv sd as_ s x i k ST ltac:(lia) PL FR KL) as (NE & FA & LB & AA).
  destruct (loop_objective g m b limits goal vchk rv sd x i (obstacles (world_of s)) (firstn (S k) as_) p v ST CO D (proj1 PL) (proj1 (proj2 PL)) NE FA HC AA MV)
    as (J & EJ & BJ). rewrite LB in BJ.
  assert (JA : J = accrued g 0 (firstn (S k) as_)).
  { pose proof (objective_accrued g m (fine g 0 limits goal vchk rv sd) x i (obstacles (world_of s)) (firstn (S k) as_)) as OA.
    rewrite OA in EJ; try assumption; [injection EJ as <-; reflexivity|apply PL|apply PL|apply (fine_starts g m); [exact ST|lia]|apply fine_all; assumption]. }
  replace (cost s' - cost s) with J by (rewrite CS, JA; ring). apply BJ. exact DI.
Qed.

(** consecutive samples *)
Definition steps (L : hlimits) (l : list column) : Prop := forall j i, (S j < length l)%nat -> (i < 2)%nat ->
  two (vxmin L) (vymin L) i * Q2R (ts g) <= nth i (c_state (nth (S j) l no_column)) 0 - nth i (c_state (nth j l no_column)) 0 <= two (vxmax L) (vymax L) i * Q2R (ts g).

Lemma nth_state : forall (f : nat -> R) i, (i < 2)%nat -> nth i (map f (seq 0 (dim g))) 0 = f i.
Proof. intros f i Hi. rewrite D. destruct i as [|[|i]]; [reflexivity|reflexivity|lia]. Qed.

Lemma steps_app : forall L l0 l t0 (p v : nat -> R -> R), l0 <> [] -> steps L l0 -> records g t0 p v l ->
  (forall i, (i < 2)%nat -> nth i (c_state (last l0 no_column)) 0 = p i 0) ->
  (forall i j, (i < 2)%nat -> (j < length l)%nat ->
     two (vxmin L) (vymin L) i * Q2R (ts g) <= p i (INR (S j) * Q2R (ts g)) - p i (INR j * Q2R (ts g)) <= two (vxmax L) (vymax L) i * Q2R (ts g)) ->
  steps L (l0 ++ l).
Proof.
  intros L l0 l t0 p v NE S0 RC LS B j i Hj Hi. rewrite app_length in Hj.
  destruct (Nat.lt_ge_cases (S j) (length l0)) as [C|C].
  - rewrite !app_nth1 by lia. apply S0; assumption.
  - rewrite (app_nth2 l0 l no_column C). destruct (RC (S j - length l0)%nat ltac:(lia)) as (_ & X & _). rewrite X, nth_state by exact Hi.
    destruct (Nat.eq_dec (S j) (length l0)) as [E|E].
    + assert (JJ : nth j l0 no_column = last l0 no_column) by (rewrite Timing_Proofs.last_nth; f_equal; lia).
      rewrite app_nth1 by lia. rewrite JJ, LS by exact Hi.
      replace (S j - length l0)%nat with 0%nat by lia. specialize (B i 0%nat Hi ltac:(lia)). cbn [INR] in B. rewrite Rmult_0_l in B. exact B.
    + rewrite app_nth2 by lia. destruct (RC (j - length l0)%nat ltac:(lia)) as (_ & Y & _). rewrite Y, nth_state by exact Hi.
      replace (S j - length l0)%nat with (S (j - length l0)) by lia. apply B; [exact Hi|lia].
Qed.

Theorem mission_steps : forall legs x0 i0 obs s l, 0 <= tol -> stol < 1 -> ideal_update g = false -> reaches g stol tol limits vchk rv sd legs x0 i0 obs s ->
  let L := holonomic_limits b in
  vxmin L <= 0 <= vxmax L -> vymin L <= 0 <= vymax L -> log (world_of s) = Some l ->
  forall j i, (S j < length l)%nat -> (i < 2)%nat ->
  two (vxmin L) (vymin L) i * Q2R (ts g) <= nth i (c_state (nth (S j) l no_column)) 0 - nth i (c_state (nth j l no_column)) 0 <= two (vxmax L) (vymax L) i * Q2R (ts g).
Proof.
  intros legs x0 i0 obs s l Tt T1 ID RC L LX LY LL. pose proof ST as (S1 & S2 & S3 & _). pose proof (Q2R_pos _ S1) as TP.
  assert (UR : Q2R (upd g) = INR m * Q2R (ts g)).
  { rewrite (Qeq_eqR _ _ S3), Q2R_mult. f_equal. rewrite INR_IZR_INZ. unfold Q2R, inject_Z. cbn. field. }
  assert (G : forall legs s s' , kept g obs s -> (forall l, log (world_of s) = Some l -> steps L l) ->
     fair_legs g stol tol limits vchk rv sd legs s -> mission g stol legs s = Some s' -> forall l, log (world_of s') = Some l -> steps L l).
  { clear l LL legs x0 i0 s RC. induction legs as [|g1 r IH]; intros s s' KP SP FL MS; [injection MS as <-; exact SP|].
    cbn [mission] in MS. destruct (do_leg g stol g1 s) as [s1|] eqn:DL; [|discriminate]. destruct FL as [F1 F2].
    destruct (kept_leg g m stol tol limits vchk rv sd ST CO T1 ltac:(lia) obs s g1 s1 KP F1 DL) as [KP1 _].
    apply (IH s1 s' KP1); [|apply F2, DL|exact MS]. clear IH F2 MS r s'. intros l LL.
    destruct (kept_placed g obs s KP) as (x & i & PL). destruct g1 as [goal as_|d]; cbn [do_leg] in DL.
    - destruct (drive_facts g m stol tol limits vchk rv sd ST CO T1 ltac:(lia) goal as_ s s1 x i PL F1 DL) as (k & p & v & TR & _).
      pose proof TR as (KL & MV & l0 & lr & E1 & E2 & E3 & E4). rewrite E1 in LL. injection LL as <-.
      destruct (run_answers g m tol limits goal vchk rv sd as_ s x i k ST ltac:(lia) PL F1 KL) as (NE & FA & LB & AA).
      destruct (loop_limits g m tol b limits goal vchk rv sd x i (obstacles (world_of s)) (firstn (S k) as_) p v ST CO Tt D
        (proj1 PL) (proj1 (proj2 PL)) NE FA HC AA MV) as [VL _]. fold L in VL. rewrite LB in VL.
      destruct MV as (w & lw & _ & _ & _ & _ & P0 & DV & _). rewrite LB in DV.
      assert (N0 : l0 <> []).
      { destruct E4 as [E4|(_ & E5 & _)]; [|destruct l0; [discriminate|congruence]].
        destruct PL as (_ & _ & [PC|(_ & l' & D1 & D2 & _)]); [rewrite PC in E4; discriminate|]. rewrite E4 in D1. injection D1 as <-. exact D2. }
      apply (steps_app L l0 lr (now (world_of s)) p v N0); [|exact E3| |].
      + destruct E4 as [E4|(_ & E5 & _)]; [apply SP, E4|]. intros j q Hj. lia.
      + intros q Hq. destruct E4 as [E4|(_ & E5 & E6)].
        * destruct PL as (_ & _ & [PC|(_ & l' & D1 & D2 & D3)]); [rewrite PC in E4; discriminate|]. rewrite E4 in D1. injection D1 as <-.
          rewrite D3. symmetry. apply P0. lia.
        * destruct l0 as [|c [|c' l0]]; try discriminate. destruct (E6 0%nat ltac:(cbn; lia)) as (_ & X & _). cbn [nth] in X. cbn [last]. rewrite X, nth_state by exact Hq.
          cbn [INR]. f_equal. ring.
      + intros q j Hq Hj.
        assert (JE : INR (S j) * Q2R (ts g) <= at_update g (S k)).
        { unfold at_update. rewrite UR, <- Rmult_assoc, <- mult_INR. apply Rmult_le_compat_r; [lra|]. apply le_INR. lia. }
        assert (J0 : 0 <= INR j * Q2R (ts g)) by (apply Rmult_le_pos; [apply pos_INR|lra]).
        assert (JS : INR (S j) * Q2R (ts g) - INR j * Q2R (ts g) = Q2R (ts g)) by (rewrite S_INR; ring).
        pose proof (deriv_bounds 0 (at_update g (S k)) (p q) (v q) (two (vxmin L) (vymin L) q) (two (vxmax L) (vymax L) q)) as DB.
        specialize (DB ltac:(intros t It; apply DV; [lia|exact It])). 
        specialize (fun B => DB B (INR j * Q2R (ts g)) (INR (S j) * Q2R (ts g)) J0 ltac:(lra) JE). rewrite JS in DB. apply DB.
        intros t It. destruct (VL t It) as [V0 V1]. destruct q as [|[|q]]; [exact V0|exact V1|lia].
    - destruct F1 as (K & K1 & E). destruct KP as [[(x' & i' & A & _)|(L' & a & A & B & C & DD & PA)] F2].
      + exfalso. unfold rest in DL. rewrite A in DL. discriminate.
      + assert (PL' : placed g s (c_state (last L' no_column)) (repeat 0 (dim g))).
        { split; [exact C|]. split; [apply repeat_length|]. right. split; [reflexivity|]. exists L'. repeat split; assumption. }
        destruct (rest_ok g m d K s _ _ L' a ST PL' A B DD PA K1 E) as (s2 & lr & R1 & R2 & R3 & R4 & _).
        rewrite DL in R1. injection R1 as <-. rewrite R2 in LL. injection LL as <-. rewrite ID in R4.
        eapply (steps_app L L' lr _ _ _ B (SP L' A) R4).
        * intros q Hq. reflexivity.
        * intros q j Hq Hj. cbv beta. rewrite Rminus_eq_0. destruct q as [|[|q]]; [| |lia]; unfold two; cbn [Nat.eqb]; split; nra. }
  destruct RC as (R1 & R2 & R3 & R4). fold (steps L l). apply (G legs (trip0 x0 i0 obs) s); try assumption.
  - destruct (reaches_kept g m stol tol limits vchk rv sd ST CO T1 ltac:(lia) [] x0 i0 obs (trip0 x0 i0 obs)) as [K _]; [|exact K].
    split; [exact R1|]. split; [exact R2|]. split; [exact Logic.I|reflexivity].
  - intros l1 Hl. discriminate.
Qed.
End Mission.
