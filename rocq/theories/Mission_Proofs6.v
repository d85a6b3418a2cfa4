(** A run of a mission ends when some update brings the vehicle near the goal. *)
From Coq Require Import String Reals QArith Qround Qreals ZArith Lra Lia List Arith Bool.
From Verif Require Import Spline_Model Spline_Spec Splop_Spec Vehicle_Model Vehicle_Spec Vehicle_Proofs Lift_Model Lift_Spec
  Loop_Model Loop_Spec Loop_Proofs Loop_Proofs2 Loop_Proofs3 Loop_Proofs9 Loop_Proofs10 Loop_Proofs11 Mission_Model Mission_Spec Mission_Proofs Mission_Proofs2 Mission_Proofs4 Mission_Proofs5.
From Verif Require Vehicle_Proofs2.
Import ListNotations.
Local Open Scope R_scope.
Local Notation length := List.length.

Lemma run_some : forall g stol goal as_ n w wn, (1 <= n <= length as_)%nat -> passes g (firstn n as_) w = Some wn ->
  stop_criterium stol goal wn = true -> exists w' k, run g stol goal as_ w = Some (w', k).
Proof.
  intros g stol goal. induction as_ as [|a r IH]; intros n w wn N PS SC; [cbn in N; lia|].
  destruct n as [|n]; [lia|]. cbn [firstn passes] in PS. unfold pass in PS. cbn [run].
  destruct (update g a w) as [u|]; [|discriminate]. destruct (stop_criterium stol goal u) eqn:E; [eauto|].
  destruct n as [|n].
  - cbn [firstn passes] in PS. injection PS as <-. rewrite stop_advance in SC. congruence.
  - destruct (IH (S n) (advance g u) wn) as (w' & k & R); [cbn in N |- *; lia|exact PS|exact SC|]. rewrite R. eauto.
Qed.

Theorem drive_progress : forall g m (P : world -> answer -> Prop) stol goal as_ s x i p v n, steady g m -> consistent g -> stol < 1 ->
  placed g s x i -> (forall w a, P w a -> starts_right g w a) -> timeless g P -> Forall (proper_answer g) as_ ->
  all_answers P g as_ (reset (world_of s)) -> moves g m as_ x i (obstacles (world_of s)) p v -> (1 <= n <= length as_)%nat ->
  (let E := at_update g n in
   sqrt (sumsq (vsub (map (fun i => p i E) (seq 0 (dim g))) goal)) <= stol /\
   sqrt (sumsq (map (fun i => v i E) (seq 0 (dim g)))) <= stol) ->
  exists s', drive g stol goal as_ s = Some s'.
Proof.
  intros g m P stol goal as_ s x i p v n ST CO T1 PL PS TP FA AA MV N NR. pose proof ST as (S1 & S2 & S3 & _).
  pose proof (drive_answers g m P s x i as_ ST PL PS TP FA AA) as AF. set (obs := obstacles (world_of s)) in *.
  set (W0 := reset (world_of s)) in *. pose proof PL as (LX & LI & PC).
  assert (SP : as_ = firstn n as_ ++ skipn n as_) by (symmetry; apply firstn_skipn).
  assert (PN : exists wn, passes g (firstn n as_) (world0 x i obs) = Some wn).
  { destruct MV as (w & l & M & _). rewrite SP, passes_app in M.
    destruct (passes g (firstn n as_) (world0 x i obs)) as [wn|]; [exists wn; reflexivity|discriminate]. }
  destruct PN as (wn & EN).
  assert (SC : stop_criterium stol goal wn = true).
  { rewrite (stop_recorded g m P x i obs as_ p v stol goal n wn ST CO LX LI PS FA AF MV N EN). apply Vehicle_Proofs2.arrived_ok; assumption. }
  assert (R : exists w' k, run g stol goal as_ W0 = Some (w', k)).
  { destruct PC as [PC|(PC & L & D1 & D2 & D3)].
    - apply (run_some g stol goal as_ n W0 wn N); [|exact SC]. unfold W0. rewrite PC, reset_0. exact EN.
    - destruct (ready_reset g s x i L PL D1 D2) as (RD & E1 & E2). fold W0 in RD.
      assert (FA' : Forall (proper_answer g) (firstn n as_)) by (rewrite SP in FA; apply Forall_app in FA; apply FA).
      assert (AA' : all_answers P g (firstn n as_) W0) by (rewrite SP in AA; apply all_prefix in AA; exact AA).
      assert (LN : length (firstn n as_) = n) by (rewrite firstn_length; lia).
      destruct (twins g m P W0 L (firstn n as_) ST RD PS TP FA' AA') as (_ & _ & TW).
      destruct TW as (W & wf & F1 & F2 & TT); [intros C; rewrite C in LN; cbn in LN; lia|].
      unfold afresh in F2. rewrite E2, <- E1 in F2. change (obstacles W0) with obs in F2. rewrite EN in F2. injection F2 as <-. rewrite LN in TT.
      apply (run_some g stol goal as_ n W0 W N F1). rewrite (stop_twin g m n L _ W wn stol goal ltac:(lia) S2 TT). exact SC. }
  destruct R as (W' & k & R). destruct (run_passes g stol goal as_ W0 W' k R) as (KL & _).
  unfold drive. fold W0. rewrite R.
  set (K := S k) in *.
  assert (SK : as_ = firstn K as_ ++ skipn K as_) by (symmetry; apply firstn_skipn).
  assert (FK : Forall (proper_answer g) (firstn K as_)) by (rewrite SK in FA; apply Forall_app in FA; apply FA).
  assert (AK : all_answers P g (firstn K as_) W0) by (rewrite SK in AA; apply all_prefix in AA; exact AA).
  assert (OJ : exists J, objective g (firstn K as_) W0 (cost s) = Some J).
  { destruct PC as [PC|(PC & L & D1 & D2 & D3)].
    - assert (E0 : W0 = world0 x i obs) by (unfold W0; rewrite PC; apply reset_0). rewrite E0 in AK |- *.
      assert (OA := objective_accrued g m P x i obs (firstn K as_) ST CO LX LI PS FK AK).
      assert (G : forall bs w a a', (exists r, objective g bs w a = Some r) -> exists r, objective g bs w a' = Some r).
      { induction bs as [|b bs IH]; intros w a a' (r & H); [eexists; reflexivity|]. cbn [objective] in *. destruct (prepared g w); [|discriminate].
        destruct (pass g b w); [|discriminate]. eapply IH. eexists. exact H. }
      apply (G _ _ 0). eexists. exact OA.
    - destruct (ready_reset g s x i L PL D1 D2) as (RD & _). fold W0 in RD.
      destruct (twins g m P W0 L (firstn K as_) ST RD PS TP FK AK) as (_ & OA & _). eexists. apply OA. }
  destruct OJ as (J & OJ). rewrite OJ. eexists. reflexivity.
Qed.

Section Mission.
Variables (g : settings) (m : nat) (stol tol : R) (limits : list con) (vchk : list (R * R)) (rv sd : R).
Hypothesis ST : steady g m.
Hypothesis CO : consistent g.
Hypothesis T1 : stol < 1.
Hypothesis DM : (dim g <= 10)%nat.

(** the motion exists, and the run ends if the motion comes near the goal *)
Theorem mission_ends : forall legs x0 i0 obs s goal as_, reaches g stol tol limits vchk rv sd legs x0 i0 obs s ->
  fair g tol limits vchk rv sd (Drive goal as_) s -> as_ <> [] ->
  exists x i p v, placed g s x i /\ moves g m as_ x i (obstacles (world_of s)) p v /\
  ((exists n, (1 <= n <= length as_)%nat /\ let E := at_update g n in
     sqrt (sumsq (vsub (map (fun i => p i E) (seq 0 (dim g))) goal)) <= stol /\
     sqrt (sumsq (map (fun i => v i E) (seq 0 (dim g)))) <= stol) ->
   exists s', drive g stol goal as_ s = Some s').
Proof.
  intros legs x0 i0 obs s goal as_ RC [FA AA] NE.
  destruct (reaches_kept g m stol tol limits vchk rv sd ST CO T1 DM legs x0 i0 obs s RC) as [KP _].
  destruct (kept_placed g obs s KP) as (x & i & PL).
  set (P := fine g tol limits goal vchk rv sd).
  assert (PS : forall w a, P w a -> starts_right g w a) by (apply (fine_starts g m); assumption).
  assert (TP : timeless g P) by apply fine_timeless.
  assert (AP : all_answers P g as_ (reset (world_of s))) by (apply fine_all; assumption).
  pose proof (drive_answers g m P s x i as_ ST PL PS TP FA AP) as AF.
  destruct (loop_moves g m P x i (obstacles (world_of s)) as_ ST CO (proj1 PL) (proj1 (proj2 PL)) NE PS FA AF) as (p & v & MV).
  exists x, i, p, v. split; [exact PL|]. split; [exact MV|]. intros (n & N & NR).
  apply (drive_progress g m P stol goal as_ s x i p v n); assumption.
Qed.
End Mission.
