(** Arrival, the objective, and options that do not fit together. *)
From Coq Require Import String Reals QArith Qreals ZArith Lra Lia List Arith Bool.
From Coq Require Lqa.
From Verif Require Import Spline_Model Spline_Spec Spline_Proofs3 Splop_Spec Vehicle_Model Vehicle_Spec Vehicle_Proofs Vehicle_Proofs2 Quad_Proofs
  Wheel_Proofs Lift_Model Lift_Spec Lift_Proofs Lift_Proofs2 Lift_Proofs3 Lift_Proofs4
  Loop_Model Loop_Spec Loop_Proofs Loop_Proofs2 Loop_Proofs3 Loop_Proofs4 Loop_Proofs5 Loop_Proofs6 Loop_Proofs7 Loop_Proofs8 Loop_Proofs9 Loop_Proofs10.
From Verif Require Timing_Model Timing_Proofs Timing_Proofs2 Geom_Spec Geom_Proofs Geom_Proofs3 Obst_Model Obst_Spec Obst_Proofs Obst_Proofs2.
Import ListNotations.
Local Open Scope R_scope.
Local Notation length := List.length.

Lemma run_passes : forall g stol goal as_ w w' k, run g stol goal as_ w = Some (w', k) ->
  (k < length as_)%nat /\ passes g (firstn (S k) as_) w = Some (advance g w') /\ stop_criterium stol goal w' = true /\
  forall j wj, (0 < j <= k)%nat -> passes g (firstn j as_) w = Some wj -> stop_criterium stol goal wj = false.
Proof.
  intros g stol goal as_. induction as_ as [|a as_ IH]; intros w w' k H; cbn [run] in H; [discriminate|].
  destruct (update g a w) as [w1|] eqn:U; [|discriminate].
  destruct (stop_criterium stol goal w1) eqn:S.
  - injection H as <- <-. split; [cbn; lia|]. split; [|split; [exact S|intros; lia]].
    cbn [firstn passes]. unfold pass. rewrite U. reflexivity.
  - destruct (run g stol goal as_ (advance g w1)) as [[w2 j]|] eqn:R; [|discriminate]. injection H as <- <-.
    destruct (IH _ _ _ R) as (A & B & C & D). split; [cbn; lia|]. split; [|split; [exact C|]].
    + change (firstn (Datatypes.S (Datatypes.S j)) (a :: as_)) with (a :: firstn (Datatypes.S j) as_).
      cbn [passes]. unfold pass at 1. rewrite U. exact B.
    + intros i wi Hi E. destruct i as [|i]; [lia|]. cbn [firstn passes] in E. unfold pass at 1 in E. rewrite U in E.
      destruct i as [|i].
      * cbn in E. injection E as <-. exact S.
      * apply (D (Datatypes.S i) wi); [lia|exact E].
Qed.

Lemma last_recorded : forall g p v l, recorded g p v l -> l <> [] ->
  c_state (last l no_column) = map (fun i => p i (INR (length l - 1) * Q2R (ts g))) (seq 0 (dim g)) /\
  c_input (last l no_column) = map (fun i => v i (INR (length l - 1) * Q2R (ts g))) (seq 0 (dim g)).
Proof.
  intros g p v l R NE. destruct (R (length l - 1)%nat) as (_ & A & B); [destruct l; [congruence|cbn; lia]|].
  rewrite Obst_Proofs2.last_nth. split; assumption.
Qed.

Theorem loop_stops : forall g m (P : world -> answer -> Prop) s0 i0 obs as_ stol goal w k, steady g m -> consistent g ->
  length s0 = dim g -> length i0 = dim g -> stol < 1 ->
  (forall w a, P w a -> starts_right g w a) -> Forall (proper_answer g) as_ ->
  all_answers P g as_ (world0 s0 i0 obs) ->
  run g stol goal as_ (world0 s0 i0 obs) = Some (w, k) ->
  let K := S k in
  exists p v l, moves g m (firstn K as_) s0 i0 obs p v /\ log w = Some l /\ recorded g p v l /\ length l = (K * m + 1)%nat /\
    let E := at_update g K in
    sqrt (sumsq (vsub (map (fun i => p i E) (seq 0 (dim g))) goal)) <= stol /\
    sqrt (sumsq (map (fun i => v i E) (seq 0 (dim g)))) <= stol.
Proof.
  intros g m P s0 i0 obs as_ stol goal w k ST CO LS LI T1 PS FA AA R K.
  destruct (run_passes g stol goal as_ _ w k R) as (KL & PP & SC & _). fold K in PP.
  assert (SP : as_ = firstn K as_ ++ skipn K as_) by (symmetry; apply firstn_skipn).
  assert (FA' : Forall (proper_answer g) (firstn K as_)) by (rewrite SP in FA; apply Forall_app in FA; apply FA).
  assert (AA' : all_answers P g (firstn K as_) (world0 s0 i0 obs)) by (rewrite SP in AA; apply all_prefix in AA; exact AA).
  assert (LK : length (firstn K as_) = K) by (rewrite firstn_length; lia).
  assert (NE : firstn K as_ <> []) by (intros C; rewrite C in LK; cbn in LK; lia).
  destruct (loop_moves g m P s0 i0 obs (firstn K as_) ST CO LS LI NE PS FA' AA') as (p & v & MV).
  pose proof MV as (w2 & l & E1 & E2 & E3 & E4 & _). rewrite PP in E1. injection E1 as <-. cbn [advance log] in E2.
  exists p, v, l. split; [exact MV|]. split; [exact E2|]. split; [exact E4|]. rewrite LK in E3. split; [exact E3|]. cbv zeta.
  unfold stop_criterium in SC. rewrite E2 in SC. cbv zeta in SC. apply arrived_ok in SC; [|exact T1].
  destruct (last_recorded g p v l E4) as [A B]; [intros ->; cbn in E3; lia|]. rewrite E3 in A, B.
  replace (INR (K * m + 1 - 1) * Q2R (ts g)) with (at_update g K) in A, B.
  - rewrite A, B in SC. exact SC.
  - unfold at_update. rewrite (upd_real g m ST). replace (K * m + 1 - 1)%nat with (K * m)%nat by lia. rewrite mult_INR. ring.
Qed.

(** ** the objective *)
Lemma accrued_bound : forall g as_ n D c, (forall j a, nth_error as_ j = Some a -> D (S (n + j)) - D (n + j)%nat <= total (dim g) (share g a (phase g (n + j))) + c) ->
  D (n + length as_)%nat - D n <= accrued g n as_ + INR (length as_) * c.
Proof.
  intros g as_. induction as_ as [|a as_ IH]; intros n D c H; cbn [accrued List.length].
  - rewrite Nat.add_0_r. cbn [INR]. lra.
  - pose proof (H 0%nat a eq_refl) as H0. rewrite Nat.add_0_r in H0.
    pose proof (IH (S n) D c) as I. replace (n + S (length as_))%nat with (S n + length as_)%nat by lia.
    rewrite S_INR.
    assert (J : forall j b, nth_error as_ j = Some b -> D (S (S n + j)) - D (S n + j)%nat <= total (dim g) (share g b (phase g (S n + j))) + c).
    { intros j b N. replace (S n + j)%nat with (n + S j)%nat by lia. apply H, N. }
    specialize (I J). lra.
Qed.

Theorem loop_objective : forall g m b limits goal vchk rv sd s0 i0 obs as_ p v, steady g m -> consistent g -> dim g = 2%nat ->
  length s0 = dim g -> length i0 = dim g -> as_ <> [] -> Forall (proper_answer g) as_ ->
  holonomic_constraints "norm_inf" b (Q2R (horizon g)) = Some limits ->
  all_answers (accepted g 0 limits goal vchk rv sd) g as_ (world0 s0 i0 obs) ->
  moves g m as_ s0 i0 obs p v ->
  exists J, objective g as_ (world0 s0 i0 obs) 0 = Some J /\
  forall I : nat -> R -> R, let E := at_update g (length as_) in
  (forall i t, (i < 2)%nat -> 0 <= t <= E -> deriv_in 0 E (I i) t (Rabs (p i t - nth i goal 0))) ->
  let L := holonomic_limits b in let U := Q2R (upd g) in
  I 0%nat E - I 0%nat 0 + (I 1%nat E - I 1%nat 0) <= J + INR (length as_) * (U / 2 * (slip g L 0 U + slip g L 1 U)).
Proof.
  intros g m b limits goal vchk rv sd s0 i0 obs as_ p v ST CO D LS LI NE FA HC AA MV.
  exists (accrued g 0 as_). split.
  { apply (objective_accrued g m (fine g 0 limits goal vchk rv sd)); auto.
    - apply (fine_starts g m); [exact ST|lia].
    - apply fine_all; assumption. }
  intros I E DI L U.
  pose proof (loop_plan g m 0 b limits goal vchk rv sd s0 i0 obs as_ p v ST CO (Rle_refl 0) D LS LI NE FA HC AA MV) as PL. fold L in PL.
  pose proof (Q2R_pos _ (upd_pos g m ST)) as UP. fold U in UP.
  assert (ST1 : forall n a i, nth_error as_ n = Some a -> (i < 2)%nat ->
     I i (at_update g (S n)) - I i (at_update g n) <= share g a (phase g n) i + U / 2 * slip g L i U).
  { intros n a i N Hi. assert (NK : (n < length as_)%nat) by (apply nth_error_Some; congruence).
    assert (PA : proper_answer g a) by (rewrite Forall_forall in FA; apply FA; apply nth_error_In in N; exact N).
    destruct (found g m 0 limits goal vchk rv sd s0 i0 obs as_ ST CO ltac:(lia) LS LI NE FA AA n a N) as (w1 & [_ AC] & RQ & _).
    destruct (phase_bounds g m n ST) as [P1 P2].
    assert (AS : at_update g (S n) = at_update g n + U) by (unfold at_update; fold U; rewrite S_INR; ring).
    assert (NU : at_update g n + U <= E).
    { rewrite <- AS. unfold E, at_update. fold U. apply Rmult_le_compat_r; [lra|apply le_INR; lia]. }
    assert (N0 : 0 <= at_update g n) by (apply Rmult_le_pos; [apply pos_INR|fold U; lra]).
    set (c := if ideal_update g then 0 else (two (axmax L) (aymax L) i - two (axmin L) (aymin L) i) * Q2R (ts g) / 4).
    assert (SL : forall t, slip g L i t = c * t) by (intros t; unfold slip, c; destruct (ideal_update g); ring).
    pose proof (gap_step g m a n i (fun t => I i (at_update g n + t)) (fun t => Rabs (p i (at_update g n + t) - nth i goal 0)) c ST PA ltac:(lia)) as G.
    fold U in G. rewrite AS. rewrite SL. replace (U / 2 * (c * U)) with (c * U ^ 2 / 2) by field.
    rewrite <- (Rplus_0_r (at_update g n)) at 2. apply G.
    - intros t It.
      assert (Q : deriv_in (0 + - at_update g n) (E + - at_update g n) (fun u => I i (u - - at_update g n)) t (Rabs (p i (at_update g n + t) - nth i goal 0))).
      { apply deriv_shift. replace (t - - at_update g n) with (at_update g n + t) by ring. apply DI; [exact Hi|lra]. }
      apply (deriv_ext _ _ (fun u => I i (u - - at_update g n))); [exact It|intros u _; f_equal; ring|].
      apply (deriv_sub (0 + - at_update g n) (E + - at_update g n)); [lra|lra|exact Q].
    - intros t It. pose proof (PL n a i t N Hi It) as X. rewrite SL in X.
      pose proof (goal_gap g m 0 limits goal vchk rv sd w1 a (phase g n) i t ST (Rle_refl 0) ltac:(lia) PA AC P1 P2 ltac:(lia) It) as Y.
      rewrite drift_max_0 in Y.
      pose proof (Rabs_triang (p i (at_update g n + t) - course g a (phase g n) 0 i t) (course g a (phase g n) 0 i t - nth i goal 0)) as Z.
      replace (p i (at_update g n + t) - course g a (phase g n) 0 i t + (course g a (phase g n) 0 i t - nth i goal 0)) with
        (p i (at_update g n + t) - nth i goal 0) in Z by ring. lra. }
  pose proof (accrued_bound g as_ 0 (fun n => I 0%nat (at_update g n) + I 1%nat (at_update g n)) (U / 2 * (slip g L 0 U + slip g L 1 U))) as AB.
  cbv beta in AB. cbn [Nat.add] in AB. fold E in AB.
  assert (A0 : at_update g 0 = 0) by (unfold at_update; cbn; ring). rewrite A0 in AB.
  assert (Q : I 0%nat E + I 1%nat E - (I 0%nat 0 + I 1%nat 0) <= accrued g 0 as_ + INR (length as_) * (U / 2 * (slip g L 0 U + slip g L 1 U))).
  { apply AB. intros j a N. pose proof (ST1 j a 0%nat N ltac:(lia)). pose proof (ST1 j a 1%nat N ltac:(lia)).
    rewrite D, !total_S. unfold total at 1. cbn [seq map fold_right]. lra. }
  lra.
Qed.
