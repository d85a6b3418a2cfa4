(** Two steps of a length other than the update time. *)
From Coq Require Import Reals QArith Qreals ZArith Lra Lia List Arith Bool.
From Coq Require Lqa.
From Verif Require Import Spline_Model Spline_Spec Splop_Spec Vehicle_Model Vehicle_Spec Lift_Model Lift_Spec
  Loop_Model Loop_Spec Loop_Proofs Loop_Proofs2 Loop_Proofs3 Mission_Model Mission_Spec Mission_Proofs Step_Model Step_Spec Step_Proofs Step_Proofs2 Step_Proofs3.
From Verif Require Grid_Model Timing_Model Timing_Proofs Timing_Proofs2.
Import ListNotations.
Local Open Scope R_scope.

(** the columns that a step appends *)
Lemma step_appends : forall g m tol goal u a w w' s, steady g m -> proper_answer g a -> step g tol goal u a w = Some (w', s) ->
  exists l0 l, log w' = Some (l0 ++ l) /\ length l = m /\ (1 <= length l0)%nat /\
    (forall j, (j < m)%nat -> (c_time (nth j l no_column) == now w + inject_Z (Z.of_nat (S j)) * ts g)%Q) /\
    match log w with Some l1 => l1 <> [] -> l0 = l1 | None => length l0 = 1%nat /\ (c_time (nth 0 l0 no_column) == now w)%Q end \/
  log w = Some [].
Proof.
  intros g m tol goal u a w w' s ST PA H. unfold step in H. destruct (update g a w) as [w2|] eqn:U; [|discriminate].
  injection H as <- _. destruct (update_prepared _ _ _ _ U) as [w1 PR].
  pose proof (prepared_now _ _ _ PR) as NW.
  destruct (update_shape g m a w w1 ST PA PR) as (p & L & PL & U2). rewrite U in U2. injection U2 as ->.
  assert (LW : log w1 = log w).
  { unfold prepared in PR. destruct (predict g w _ _ _) as [[s' i]|]; [|discriminate]. injection PR as <-. reflexivity. }
  destruct (log w) as [[|c1 l1]|] eqn:E; [exists [], []; right; reflexivity| |].
  - exists (started w1 p), (appended g m p (c_state (last (started w1 p) no_column))). left.
    split; [reflexivity|]. split; [apply appended_length|]. unfold started. rewrite LW. split; [cbn; lia|].
    split; [|intros _; reflexivity]. intros j J.
    pose proof (appended_nth g m p (c_state (last (c1 :: l1) no_column)) (S j) ltac:(lia)) as X. replace (S j - 1)%nat with j in X by lia.
    rewrite X. cbn [c_time]. destruct (PL (S j) ltac:(lia)) as (T & _). rewrite T, NW. reflexivity.
  - exists (started w1 p), (appended g m p (c_state (last (started w1 p) no_column))). left.
    split; [reflexivity|]. split; [apply appended_length|]. unfold started. rewrite LW.
    destruct p as [|c p]; [cbn in L; lia|]. cbn [firstn]. split; [cbn; lia|].
    split.
    + intros j J.
      pose proof (appended_nth g m (c :: p) (c_state (last [c] no_column)) (S j) ltac:(lia)) as X. replace (S j - 1)%nat with j in X by lia.
      rewrite X. cbn [c_time]. destruct (PL (S j) ltac:(lia)) as (T & _). rewrite T, NW. reflexivity.
    + split; [reflexivity|]. destruct (PL 0%nat ltac:(lia)) as (T & _). cbn [nth] in *. rewrite T, NW.
      change (inject_Z (Z.of_nat 0)) with 0%Q. ring.
Qed.

(** after a first step of K samples the next one succeeds *)
Theorem step_again : forall g m N tol goal u K a b s i obs w1 s1, steady g m -> whole_horizon g N ->
  proper_answer g a -> proper_answer g b -> (1 <= K)%nat -> (u == inject_Z (Z.of_nat K) * ts g)%Q ->
  step g tol goal u a (world0 s i obs) = Some (w1, s1) -> sh_stop s1 = false ->
  exists w2 s2, step g tol goal u b w1 = Some (w2, s2).
Proof.
  intros g m N tol goal u K a b s i obs w1 s1 ST W PA PB K1 U H NS. pose proof W as (A & B & C).
  pose proof ST as (_ & M1 & UM & _).
  unfold step in H. destruct (update g a (world0 s i obs)) as [w'|] eqn:UP; [|discriminate].
  injection H as <- <-. cbn [sh_stop] in NS. rewrite NS.
  destruct (update_shape g m a _ _ ST PA (prepared_first g s i obs)) as (p & L & PL & U2). rewrite UP in U2. injection U2 as ->.
  (* the plan covers the horizon *)
  destruct (store_whole g N a 0 0 W PA ltac:(reflexivity)) as (p' & E & L' & P').
  destruct (update_shape g m a _ _ ST PA (prepared_first g s i obs)) as (p2 & _ & _ & U3).
  assert (PE : p = p').
  { unfold update in UP. rewrite prepared_first in UP. unfold deployed in UP. cbn [now start_time] in UP. rewrite E in UP.
    unfold simulated in UP. cbn [now start_time dep_now iteration0 log plan p_state p_input obstacles] in UP.
    destruct (simulate_vehicle _ _ _); [|discriminate]. injection UP. intros. congruence. }
  subst p'.
  set (l0 := started (mkW 0 0 false 0 None None s i obs) p) in *.
  set (l := appended g m p (c_state (last l0 no_column))) in *.
  assert (L0 : length l0 = 1%nat) by (unfold l0, started; cbn [log]; destruct p; [discriminate|reflexivity]).
  assert (LL : length (l0 ++ l) = S m) by (rewrite app_length, L0; unfold l; rewrite appended_length; lia).
  assert (TL : (c_time (last (l0 ++ l) no_column) == upd g)%Q).
  { unfold l. rewrite last_appended by exact M1. rewrite appended_nth by lia. cbn [c_time].
    destruct (PL m (Nat.le_refl m)) as (T & _). rewrite T. cbn [now]. rewrite UM. ring. }
  match goal with |- context [tick g u ?x] => set (w2 := tick g u x) end.
  pose proof (samples_pos g K A K1) as KP.
  assert (NW : (now w2 == inject_Z (Z.of_nat K) * ts g)%Q).
  { unfold w2, tick. cbn [now]. unfold Timing_Model.chosen. destruct (Qeq_bool u 0) eqn:Z.
    - apply Qeq_bool_iff in Z. exfalso. rewrite U in Z. Lqa.lra.
    - rewrite U. ring. }
  assert (PR : exists w3, prepared g w2 = Some w3).
  { unfold prepared. cbn [iteration0 w2 tick start_time]. fold w2.
    assert (DU : dep_update g w2 = upd g).
    { unfold dep_update. cbn [w2 tick log dep_now now]. apply shortened_full; [exact A|]. rewrite TL. ring. }
    rewrite DU. destruct (upd_samples g m ST) as [N1 N2].
    assert (DD : exists k, (k <= N)%nat /\ (Z.of_nat m + dep_delay g w2 (upd g) = Z.of_nat k)%Z).
    { unfold dep_delay. replace (plan w2) with (Some p) by reflexivity.
      replace (iteration0 w2) with false by reflexivity. unfold Timing_Model.delay.
      assert (PI : Timing_Model.pint ((now w2 - dep_now w2 - upd g) / ts g) = (Z.of_nat K - Z.of_nat m)%Z).
      { apply Timing_Proofs.pint_eq. rewrite NW. unfold Z.sub. rewrite inject_Z_plus, inject_Z_opp.
        replace (dep_now w2) with 0%Q by reflexivity. rewrite UM. field. intros F. Lqa.lra. }
      assert (NS' : Timing_Model.n_samp (c_time (last p no_column) - dep_now w2) (ts g) = Z.of_nat N).
      { apply Timing_Proofs.n_samp_whole; [exact A|]. replace (dep_now w2) with 0%Q by reflexivity.
        rewrite Timing_Proofs.last_nth, L'. replace (S N - 1)%nat with N by lia.
        destruct (P' N (Nat.le_refl N)) as (T & _). rewrite T. ring. }
      rewrite PI, NS', N1. destruct (Z.ltb_spec (Z.of_nat N) (Z.of_nat K - Z.of_nat m + Z.of_nat m)).
      - exists m. split; [lia|lia].
      - exists K. split; lia. }
    destruct DD as (k & KN & DD). unfold predict.
    assert (X : Qeq_bool (now w2) 0 = false).
    { destruct (Qeq_bool (now w2) 0) eqn:Z; [|reflexivity]. apply Qeq_bool_iff in Z. rewrite NW in Z. exfalso. Lqa.lra. }
    rewrite X, N1, DD. replace (plan w2) with (Some p) by reflexivity. replace (log w2) with (Some (l0 ++ l)) by reflexivity.
    assert (Y1 : exists c, py_nth p (Z.of_nat k) = Some c).
    { unfold py_nth. destruct (Z.ltb_spec (Z.of_nat k) 0); [lia|]. destruct (Z.ltb_spec (Z.of_nat k) 0); [lia|].
      rewrite Nat2Z.id. destruct (nth_error p k) eqn:Z; [eexists; reflexivity|]. apply nth_error_None in Z. lia. }
    assert (Y2 : exists c, py_nth (l0 ++ l) (- Z.of_nat m - 1) = Some c).
    { unfold py_nth. rewrite LL. destruct (Z.ltb_spec (- Z.of_nat m - 1) 0); [|lia].
      replace (Z.of_nat (S m) + (- Z.of_nat m - 1))%Z with 0%Z by lia. cbn [Z.ltb Z.compare Z.to_nat].
      destruct (l0 ++ l) as [|c r] eqn:Z; [discriminate|]. exists c. reflexivity. }
    destruct Y1 as [c1 Y1], Y2 as [c2 Y2]. rewrite Y1, Y2. destruct (ideal_prediction g); eexists; reflexivity. }
  destruct PR as [w3 PR].
  destruct (step_shown g m tol goal u b w2 w3 ST PB PR) as (w4 & s4 & X & _). exists w4, s4. exact X.
Qed.

Lemma evenly_app : forall h l1 l2, l1 <> [] -> l2 <> [] -> evenly h (l1 ++ l2) ->
  (c_time (nth 0 l2 no_column) == c_time (last l1 no_column) + h)%Q.
Proof.
  intros h l1 l2 N1 N2 E. destruct l1 as [|c l1]; [contradiction|]. destruct l2 as [|d l2]; [contradiction|].
  assert (X := E (length l1) ltac:(rewrite app_length; cbn; lia)).
  rewrite app_nth2 in X by (cbn; lia). rewrite app_nth1 in X by (cbn; lia).
  rewrite Timing_Proofs.last_nth. cbn [length] in *. replace (S (length l1) - S (length l1))%nat with 0%nat in X by lia.
  replace (S (length l1) - 1)%nat with (length l1) by lia. exact X.
Qed.
Lemma app_evenly : forall h l1 l2 t, l1 <> [] -> evenly h l1 -> (t == c_time (last l1 no_column))%Q ->
  (forall j, (j < length l2)%nat -> (c_time (nth j l2 no_column) == t + inject_Z (Z.of_nat (S j)) * h)%Q) -> evenly h (l1 ++ l2).
Proof.
  intros h l1 l2 t N1 E T F j J. rewrite app_length in J. destruct (le_lt_dec (S j) (length l1 - 1)) as [G|G].
  - rewrite !app_nth1 by lia. apply E. lia.
  - rewrite (app_nth2 _ _ _ (n := S j)) by lia. rewrite (F (S j - length l1)%nat) by lia.
    destruct (Nat.eq_dec (S j) (length l1)) as [Q|Q].
    + rewrite app_nth1 by lia. rewrite T, Timing_Proofs.last_nth. replace (length l1 - 1)%nat with j by lia.
      replace (S (S j - length l1)) with 1%nat by lia. change (inject_Z (Z.of_nat 1)) with 1%Q. ring.
    + rewrite app_nth2 by lia. rewrite (F (j - length l1)%nat) by lia.
      replace (Z.of_nat (S (S j - length l1))) with (Z.of_nat (S (j - length l1)) + 1)%Z by lia. rewrite inject_Z_plus. change (inject_Z 1) with 1%Q. ring.
Qed.

(** the log of two steps is evenly sampled only if the steps are as long as the updates *)
Theorem steps_even : forall g m N tol goal u K a b s i obs w1 s1, steady g m -> whole_horizon g N ->
  proper_answer g a -> proper_answer g b -> (1 <= K)%nat -> (u == inject_Z (Z.of_nat K) * ts g)%Q ->
  step g tol goal u a (world0 s i obs) = Some (w1, s1) -> sh_stop s1 = false ->
  exists w2 s2 l1 l2, step g tol goal u b w1 = Some (w2, s2) /\ log w1 = Some l1 /\ log w2 = Some (l1 ++ l2) /\
    length l1 = S m /\ length l2 = m /\
    (forall j, (j <= m)%nat -> (c_time (nth j l1 no_column) == inject_Z (Z.of_nat j) * ts g)%Q) /\
    (forall j, (j < m)%nat -> (c_time (nth j l2 no_column) == inject_Z (Z.of_nat (K + S j)) * ts g)%Q) /\
    (evenly (ts g) (l1 ++ l2) <-> K = m) /\
    ((K < m)%nat -> (c_time (nth 0 l2 no_column) <= c_time (last l1 no_column))%Q).
Proof.
  intros g m N tol goal u K a b s i obs w1 s1 ST W PA PB K1 U H NS.
  pose proof ST as (A & M1 & UM & _).
  destruct (step_again g m N tol goal u K a b s i obs w1 s1 ST W PA PB K1 U H NS) as (w2 & s2 & H2).
  destruct (step_appends _ _ _ _ _ _ _ _ _ ST PA H) as (k0 & k & [(LA & LK & L0 & TK & (Z1 & Z2))|F]); [|discriminate].
  destruct (step_appends _ _ _ _ _ _ _ _ _ ST PB H2) as (l0 & l2 & [(LB & LL & _ & TL & Z3)|F]).
  2:{ rewrite F in LA. injection LA as X. destruct k0; [cbn in L0; lia|discriminate]. }
  rewrite LA in Z3. assert (NE : k0 ++ k <> []) by (destruct k0; [cbn in L0; lia|discriminate]). rewrite (Z3 NE) in LB.
  assert (NW : (now w1 == u)%Q).
  { unfold step in H. destruct (update g a (world0 s i obs)) as [w'|] eqn:UP; [|discriminate]. injection H as <- <-.
    cbn [sh_stop] in NS. rewrite NS. unfold tick. cbn [now].
    destruct (update_time g m a _ _ ST PA (prepared_first g s i obs)) as (w'' & UP2 & N2 & _). rewrite UP in UP2. injection UP2 as <-.
    rewrite N2. cbn [now world0]. unfold Timing_Model.chosen. destruct (Qeq_bool u 0) eqn:Z; [|ring].
    apply Qeq_bool_iff in Z. rewrite U in Z. pose proof (samples_pos g K A K1). exfalso. Lqa.lra. }
  exists w2, s2, (k0 ++ k), l2.
  assert (T1 : forall j, (j <= m)%nat -> (c_time (nth j (k0 ++ k) no_column) == inject_Z (Z.of_nat j) * ts g)%Q).
  { intros [|j] J.
    - rewrite app_nth1 by lia. rewrite Z2. cbn [now world0]. change (inject_Z (Z.of_nat 0)) with 0%Q. ring.
    - rewrite app_nth2 by lia. rewrite Z1. replace (S j - 1)%nat with j by lia. rewrite TK by lia. cbn [now world0]. ring. }
  assert (T2 : forall j, (j < m)%nat -> (c_time (nth j l2 no_column) == inject_Z (Z.of_nat (K + S j)) * ts g)%Q).
  { intros j J. rewrite TL by lia. rewrite NW, U, Nat2Z.inj_add, inject_Z_plus. ring. }
  assert (LE : length (k0 ++ k) = S m) by (rewrite app_length; lia).
  assert (LS : (c_time (last (k0 ++ k) no_column) == inject_Z (Z.of_nat m) * ts g)%Q).
  { rewrite Timing_Proofs.last_nth, LE. replace (S m - 1)%nat with m by lia. apply T1. lia. }
  split; [exact H2|]. split; [exact LA|]. split; [exact LB|]. split; [exact LE|]. split; [exact LL|].
  split; [exact T1|]. split; [exact T2|]. split; [split|].
  - intros E. assert (N2 : l2 <> []) by (intros X; rewrite X in LL; cbn in LL; lia).
    pose proof (evenly_app _ _ _ NE N2 E) as X. rewrite LS, (T2 0%nat) in X by lia.
    assert (Y : (inject_Z (Z.of_nat (K + 1)) == inject_Z (Z.of_nat (m + 1)))%Q).
    { rewrite (Nat2Z.inj_add m), inject_Z_plus. change (inject_Z (Z.of_nat 1)) with 1%Q.
      apply (Qmult_inj_r _ _ (ts g)); [intros F; Lqa.lra|]. rewrite X. ring. }
    apply (proj1 (inject_Z_injective _ _)) in Y. lia.
  - intros ->. apply (app_evenly (ts g) _ _ (now w1) NE).
    + intros j J. rewrite LE in J. rewrite !T1 by lia. replace (Z.of_nat (S j)) with (Z.of_nat j + 1)%Z by lia. rewrite inject_Z_plus. change (inject_Z 1) with 1%Q. ring.
    + rewrite NW, U, LS. reflexivity.
    + intros j J. apply TL. lia.
  - intros KM. rewrite (T2 0%nat) by lia. rewrite LS. apply Qmult_le_compat_r; [|Lqa.lra]. rewrite <- Zle_Qle. lia.
Qed.
