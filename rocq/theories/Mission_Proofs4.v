(** What every mission keeps. *)
From Coq Require Import String Reals QArith Qround Qreals ZArith Lra Lia List Arith Bool.
From Coq Require Lqa.
From Verif Require Import Spline_Model Spline_Spec Splop_Spec Vehicle_Model Vehicle_Spec Vehicle_Proofs Lift_Model Lift_Spec
  Loop_Model Loop_Spec Loop_Proofs Loop_Proofs2 Loop_Proofs3 Loop_Proofs8 Loop_Proofs9 Loop_Proofs10 Loop_Proofs11 Mission_Model Mission_Spec Mission_Proofs Mission_Proofs2 Mission_Proofs3.
From Verif Require Grid_Proofs Grid_Model Timing_Model Timing_Proofs Timing_Proofs2 Obst_Model Obst_Spec Obst_Proofs2.
Import ListNotations.
Local Open Scope R_scope.
Local Notation length := List.length.

(** the recorded motion of an obstacle after n samples *)
Definition followed (g : settings) (n : nat) (o o' : obstacle) : Prop :=
  (o_chk o' = o_chk o /\ o_rad o' = o_rad o /\ o_theta o' = o_theta o /\ o_evx o' = o_evx o /\ o_evy o' = o_evy o) /\
  forall x y, fresh o x y ->
    Obst_Proofs2.on_motion (o_evx o) x (o_lx o') /\ last (Obst_Model.ltime (o_lx o')) 0 = INR n * Q2R (ts g) /\
    Obst_Proofs2.on_motion (o_evy o) y (o_ly o') /\ last (Obst_Model.ltime (o_ly o')) 0 = INR n * Q2R (ts g).

Lemma followed_0 : forall g o, followed g 0 o o.
Proof.
  intros g o. split; [repeat split; reflexivity|]. intros x y (A & B & C). rewrite A, B.
  split; [|split; [|split]]; try (apply Obst_Proofs2.log0_on_motion; intros e He; apply C; auto); cbn; ring.
Qed.
Lemma followed_step : forall g n o o' d K, (0 < ts g)%Q -> (1 <= K)%nat -> (d == inject_Z (Z.of_nat K) * ts g)%Q ->
  followed g n o o' -> followed g (n + K) o (simulate_obstacle g d o').
Proof.
  intros g n o o' d K S1 K1 E ((A1 & A2 & A3 & A4 & A5) & H). pose proof (Q2R_pos _ S1) as TP.
  unfold simulate_obstacle. rewrite (Timing_Proofs.n_samp_whole d (ts g) (Z.of_nat K) S1 E), Nat2Z.id.
  split; [repeat split; assumption|]. intros x y F. destruct (H x y F) as (B1 & B2 & B3 & B4). destruct F as (_ & _ & C).
  cbn [o_lx o_ly o_evx o_evy]. rewrite A4, A5, !simulate_last by exact K1. rewrite B2, B4, plus_INR.
  split; [|split; [|split]]; try ring; apply Obst_Proofs2.simulate_on_motion; try assumption; try lra; intros e He; apply C; auto.
Qed.
Lemma followed_after : forall g m n k o o', steady g m -> followed g n o o' -> followed g (n + k * m) o (obstacle_after g k o').
Proof.
  intros g m n k o o' (S1 & S2 & S3 & _) H. induction k as [|k IH]; [rewrite Nat.add_0_r; exact H|].
  cbn [obstacle_after]. replace (n + S k * m)%nat with (n + k * m + m)%nat by (cbn; lia). apply followed_step; assumption.
Qed.
Lemma followed_state : forall g n o o' x y, followed g n o o' -> fresh o x y ->
  Obst_Spec.moved_to (o_evx o) 0 x (INR n * Q2R (ts g)) (last (Obst_Model.lstate (o_lx o')) Obst_Model.ost0) /\
  Obst_Spec.moved_to (o_evy o) 0 y (INR n * Q2R (ts g)) (last (Obst_Model.lstate (o_ly o')) Obst_Model.ost0).
Proof.
  intros g n o o' x y (_ & H) F. destruct (H x y F) as (B1 & B2 & B3 & B4).
  assert (G : forall evs z l T, Obst_Proofs2.on_motion evs z l -> last (Obst_Model.ltime l) 0 = T ->
     Obst_Spec.moved_to evs 0 z T (last (Obst_Model.lstate l) Obst_Model.ost0)).
  { intros evs z l T (A & B & _ & C) <-. rewrite !Obst_Proofs2.last_nth, <- A. apply C.
    destruct (Obst_Model.ltime l); [congruence|]. cbn [List.length]. lia. }
  split; [apply (G _ _ _ _ B1 B2)|apply (G _ _ _ _ B3 B4)].
Qed.

Definition kept (g : settings) (obs : list obstacle) (s : trip) : Prop :=
  ((exists x i, world_of s = world0 x i obs /\ length x = dim g /\ length i = dim g) \/
   (exists L a, log (world_of s) = Some L /\ L <> [] /\ length (c_state (last L no_column)) = dim g /\
      last_answer s = Some a /\ proper_answer g a)) /\
  Forall2 (followed g (samples s)) obs (obstacles (world_of s)).

Lemma kept_placed : forall g obs s, kept g obs s -> exists x i, placed g s x i.
Proof.
  intros g obs s ([(x & i & A & B & C)|(L & a & A & B & C & _)] & _).
  - exists x, i. split; [exact B|]. split; [exact C|]. left. rewrite A. reflexivity.
  - exists (c_state (last L no_column)), (repeat 0 (dim g)). split; [exact C|]. split; [apply repeat_length|]. right. split; [reflexivity|].
    exists L. repeat split; assumption.
Qed.

Lemma forall2_map : forall {A} (R S : A -> A -> Prop) (f : A -> A) l k, (forall x y, R x y -> S x (f y)) -> Forall2 R l k -> Forall2 S l (map f k).
Proof. intros A R S f l k H F. induction F; cbn [map]; constructor; auto. Qed.

Section Mission.
Variables (g : settings) (m : nat) (stol tol : R) (limits : list con) (vchk : list (R * R)) (rv sd : R).
Hypothesis ST : steady g m.
Hypothesis CO : consistent g.
Hypothesis T1 : stol < 1.
Hypothesis DM : (dim g <= 10)%nat.

Lemma drive_facts : forall goal as_ s s' x i, placed g s x i -> fair g tol limits vchk rv sd (Drive goal as_) s ->
  drive g stol goal as_ s = Some s' ->
  exists k p v, travels g m k as_ s s' x i p v /\
    (let near n := let E := at_update g n in
       sqrt (sumsq (vsub (map (fun i => p i E) (seq 0 (dim g))) goal)) <= stol /\
       sqrt (sumsq (map (fun i => v i E) (seq 0 (dim g)))) <= stol in
     near (S k) /\ forall n, (1 <= n <= k)%nat -> ~ near n) /\
    obstacles (world_of s') = map (obstacle_after g (S k)) (obstacles (world_of s)) /\
    last_answer s' = nth_error as_ k /\
    cost s' = cost s + accrued g 0 (firstn (S k) as_) /\
    (now (world_of s') == now (world_of s) + inject_Z (Z.of_nat (S k)) * upd g
       - (if andb (Grid_Model.Qltb (ts g) 1) (2 <=? m)%nat then ts g else 0))%Q.
Proof.
  intros goal as_ s s' x i PL [FA AA] DR.
  apply (drive_ok g m (fine g tol limits goal vchk rv sd)); try assumption.
  - apply (fine_starts g m); assumption.
  - apply fine_timeless.
  - apply fine_all; assumption.
Qed.

Lemma kept_leg : forall obs s l s', kept g obs s -> fair g tol limits vchk rv sd l s -> do_leg g stol l s = Some s' ->
  kept g obs s' /\ (exists L, log (world_of s') = Some L).
Proof.
  intros obs s l s' KP FR DL. pose proof ST as (S1 & S2 & S3 & _). destruct l as [goal as_|d].
  - cbn [do_leg] in DL. destruct (kept_placed g obs s KP) as (x & i & PL).
    destruct (drive_facts goal as_ s s' x i PL FR DL) as (k & p & v & TR & _ & OB & LA & _).
    destruct TR as (KL & _ & l0 & l & E1 & E2 & E3 & E4).
    assert (KM : (1 <= S k * m)%nat) by nia.
    split; [|exists (l0 ++ l); exact E1]. split.
    + right. destruct (nth_error as_ k) as [a|] eqn:NA; [|apply nth_error_None in NA; lia].
      exists (l0 ++ l), a. split; [exact E1|]. split; [destruct l; [cbn in E2; lia|intros C; apply app_eq_nil in C; destruct C; discriminate]|].
      split; [|split; [exact LA|]].
      * rewrite (nth_last_app l0 l (S k * m)) by lia. destruct (E3 (S k * m - 1)%nat ltac:(lia)) as (_ & X & _). rewrite X, map_length, seq_length. reflexivity.
      * destruct FR as [FA _]. rewrite Forall_forall in FA. apply FA. apply nth_error_In in NA. exact NA.
    + rewrite OB. destruct KP as [_ F2].
      apply (forall2_map (followed g (samples s))); [|exact F2]. intros o o' H.
      assert (SS : samples s' = (samples s + S k * m)%nat).
      { unfold samples. rewrite E1, app_length, E2. destruct E4 as [E4|(E4 & E5 & _)]; rewrite E4.
        - assert (NE : l0 <> []).
          { destruct PL as (_ & _ & [PC|(_ & l' & D1 & D2 & _)]); [rewrite PC in E4; discriminate|]. rewrite E4 in D1. injection D1 as <-. exact D2. }
          destruct l0; [congruence|]. cbn [length]. lia.
        - lia. }
      rewrite SS. apply followed_after; assumption.
  - cbn [do_leg] in DL. destruct FR as (K & K1 & E).
    destruct (kept_placed g obs s KP) as (x & i & PL). destruct KP as [[(x' & i' & A & _)|(L & a & A & B & C & D & PA)] F2].
    + exfalso. unfold rest in DL. rewrite A in DL. discriminate.
    + destruct (rest_ok g m d K s x i L a ST PL A B D PA K1 E) as (s2 & l & R1 & R2 & R3 & R4 & R5 & R6 & _ & _ & R9).
      rewrite DL in R1. injection R1 as <-. split; [|exists (L ++ l); exact R2]. split.
      * right. exists (L ++ l), a. split; [exact R2|].
        split; [destruct L; [congruence|discriminate]|]. split; [|split; assumption].
        rewrite R9. destruct (ideal_update g); [unfold plan_end; rewrite map_length, seq_length; reflexivity|apply PL].
      * rewrite R5. apply (forall2_map (followed g (samples s))); [|exact F2]. intros o o' H.
        assert (SS : samples s' = (samples s + K)%nat).
        { unfold samples. rewrite A, R2, app_length, R3. destruct L; [congruence|]. cbn [length]. lia. }
        rewrite SS. apply followed_step; assumption.
Qed.

Lemma kept_mission : forall legs obs s s', kept g obs s -> fair_legs g stol tol limits vchk rv sd legs s -> mission g stol legs s = Some s' ->
  kept g obs s' /\ (legs <> [] -> exists L, log (world_of s') = Some L).
Proof.
  induction legs as [|l r IH]; intros obs s s' KP FL MS.
  - injection MS as <-. split; [exact KP|congruence].
  - cbn [mission] in MS. destruct (do_leg g stol l s) as [s1|] eqn:DL; [|discriminate]. destruct FL as [F1 F2].
    destruct (kept_leg obs s l s1 KP F1 DL) as [K1 (L & LL)]. destruct (IH obs s1 s' K1 (F2 s1 DL) MS) as [K2 N2]. split; [exact K2|].
    intros _. destruct r as [|l' r]; [injection MS as <-; exists L; exact LL|apply N2; discriminate].
Qed.

Lemma reaches_kept : forall legs x0 i0 obs s, reaches g stol tol limits vchk rv sd legs x0 i0 obs s ->
  kept g obs s /\ (legs <> [] -> exists L, log (world_of s) = Some L).
Proof.
  intros legs x0 i0 obs s (A & B & C & D). apply (kept_mission legs obs (trip0 x0 i0 obs) s); [|exact C|exact D].
  split; [left; exists x0, i0; repeat split; assumption|]. cbn [trip0 world_of world0 obstacles]. unfold samples. cbn [trip0 world_of world0 log].
  clear C D. induction obs; constructor; [apply followed_0|exact IHobs].
Qed.

(** a run of a mission *)
Theorem mission_drive : forall legs x0 i0 obs s goal as_ s', reaches g stol tol limits vchk rv sd legs x0 i0 obs s ->
  fair g tol limits vchk rv sd (Drive goal as_) s -> drive g stol goal as_ s = Some s' ->
  exists x i k p v, placed g s x i /\ travels g m k as_ s s' x i p v /\
    (let near n := let E := at_update g n in
       sqrt (sumsq (vsub (map (fun i => p i E) (seq 0 (dim g))) goal)) <= stol /\
       sqrt (sumsq (map (fun i => v i E) (seq 0 (dim g)))) <= stol in
     near (S k) /\ forall n, (1 <= n <= k)%nat -> ~ near n) /\
    (now (world_of s') == now (world_of s) + inject_Z (Z.of_nat (S k)) * upd g
       - (if andb (Grid_Model.Qltb (ts g) 1) (2 <=? m)%nat then ts g else 0))%Q.
Proof.
  intros legs x0 i0 obs s goal as_ s' RC FR DR. destruct (reaches_kept legs x0 i0 obs s RC) as [KP _].
  destruct (kept_placed g obs s KP) as (x & i & PL).
  destruct (drive_facts goal as_ s s' x i PL FR DR) as (k & p & v & TR & NR & _ & _ & _ & CL).
  exists x, i, k, p, v. repeat split; try assumption; try apply TR; try apply NR; apply PL.
Qed.

(** a pause of a mission *)
Theorem mission_rest : forall legs x0 i0 obs s d K, reaches g stol tol limits vchk rv sd legs x0 i0 obs s -> legs <> [] ->
  (1 <= K)%nat -> (d == inject_Z (Z.of_nat K) * ts g)%Q ->
  exists x a s' l0 l, placed g s x (repeat 0 (dim g)) /\ last_answer s = Some a /\ rest g d s = Some s' /\
    log (world_of s) = Some l0 /\ log (world_of s') = Some (l0 ++ l) /\ length l = K /\
    records g (now (world_of s)) (fun j _ => nth j (if ideal_update g then plan_end g a else x) 0) (fun _ _ => 0) l /\
    cost s' = cost s /\ (now (world_of s') == now (world_of s) + d)%Q.
Proof.
  intros legs x0 i0 obs s d K RC NE K1 E. destruct (reaches_kept legs x0 i0 obs s RC) as [KP NL].
  destruct (NL NE) as (L & LL). destruct KP as [[(x' & i' & A & _)|(L' & a & A & B & C & D & PA)] F2].
  - rewrite A in LL. discriminate.
  - assert (PL : placed g s (c_state (last L' no_column)) (repeat 0 (dim g))).
    { split; [exact C|]. split; [apply repeat_length|]. right. split; [reflexivity|]. exists L'. repeat split; assumption. }
    destruct (rest_ok g m d K s _ _ L' a ST PL A B D PA K1 E) as (s2 & l & R1 & R2 & R3 & R4 & R5 & R6 & R7 & R8 & R9).
    exists (c_state (last L' no_column)), a, s2, L', l. repeat (split; [assumption|]). assumption.
Qed.

(** after a run the clock is one sample behind the log: the next leg repeats
    the last time stamp *)
Theorem mission_stamps : forall legs x0 i0 obs s goal as_ s1 l s2, reaches g stol tol limits vchk rv sd legs x0 i0 obs s ->
  fair g tol limits vchk rv sd (Drive goal as_) s -> drive g stol goal as_ s = Some s1 ->
  fair g tol limits vchk rv sd l s1 -> do_leg g stol l s1 = Some s2 -> (2 <= m)%nat -> (ts g < 1)%Q ->
  exists L c r, log (world_of s1) = Some L /\ log (world_of s2) = Some (L ++ c :: r) /\ (c_time c == c_time (last L no_column))%Q.
Proof.
  intros legs x0 i0 obs s goal as_ s1 l s2 RC F1 D1 F2 D2 M2 TS. pose proof ST as (S1 & S2 & S3 & _).
  destruct (reaches_kept legs x0 i0 obs s RC) as [KP _].
  destruct (mission_drive legs x0 i0 obs s goal as_ s1 RC F1 D1) as (x & i & k & p & v & PL & TR & _ & CL).
  assert (QT : Grid_Model.Qltb (ts g) 1 = true) by (apply Grid_Proofs.Qltb_lt; exact TS).
  assert (M2' : (2 <=? m)%nat = true) by (apply Nat.leb_le; exact M2). rewrite QT, M2' in CL. cbn [andb] in CL.
  destruct TR as (KL & _ & l0 & lt & E1 & E2 & E3 & _).
  assert (KM : (1 <= S k * m)%nat) by nia.
  assert (LT : (c_time (last (l0 ++ lt) no_column) == now (world_of s1) + ts g)%Q).
  { rewrite (nth_last_app l0 lt (S k * m)) by lia. destruct (E3 (S k * m - 1)%nat ltac:(lia)) as (X & _). rewrite X, CL.
    replace (S (S k * m - 1)) with (S k * m)%nat by lia. rewrite S3, Nat2Z.inj_mul, inject_Z_mult. ring. }
  exists (l0 ++ lt).
  destruct (kept_leg obs s (Drive goal as_) s1 KP F1 D1) as [KP1 _].
  assert (N1 : forall c : column, (c_time c == now (world_of s1) + inject_Z (Z.of_nat 1) * ts g)%Q -> (c_time c == c_time (last (l0 ++ lt) no_column))%Q).
  { intros c Hc. rewrite Hc, LT. change (inject_Z (Z.of_nat 1)) with 1%Q. ring. }
  destruct l as [goal2 as2|d].
  - cbn [do_leg] in D2. destruct (kept_placed g obs s1 KP1) as (x1 & i1 & PL1).
    destruct (drive_facts goal2 as2 s1 s2 x1 i1 PL1 F2 D2) as (k2 & p2 & v2 & TR2 & _).
    destruct TR2 as (_ & _ & l2 & lt2 & G1 & G2 & G3 & [G4|(G4 & _)]); [|rewrite E1 in G4; discriminate].
    rewrite E1 in G4. injection G4 as <-. destruct lt2 as [|c r]; [cbn in G2; nia|].
    exists c, r. split; [exact E1|]. split; [exact G1|]. apply N1. apply (G3 0%nat). cbn. lia.
  - cbn [do_leg] in D2. destruct F2 as (K & K1 & E).
    destruct KP1 as [[(x' & i' & A & _)|(L & a & A & B & C & D & PA)] _]; [rewrite A in E1; discriminate|].
    assert (PL1 : placed g s1 (c_state (last L no_column)) (repeat 0 (dim g))).
    { split; [exact C|]. split; [apply repeat_length|]. right. split; [reflexivity|]. exists L. repeat split; assumption. }
    destruct (rest_ok g m d K s1 _ _ L a ST PL1 A B D PA K1 E) as (s3 & lr & R1 & R2 & R3 & R4 & _).
    rewrite D2 in R1. injection R1 as <-. rewrite E1 in A. injection A as <-. destruct lr as [|c r]; [cbn in R3; lia|].
    exists c, r. split; [exact E1|]. split; [exact R2|]. apply N1. apply (R4 0%nat). cbn. lia.
Qed.
End Mission.
