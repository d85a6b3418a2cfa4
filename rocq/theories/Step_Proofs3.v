(** run_once with and without a hard stop, and what the next plan starts from;
    two steps of another length. *)
From Coq Require Import Reals QArith Qreals ZArith Lra Lia List Arith Bool.
From Coq Require Lqa.
From Verif Require Import Spline_Model Spline_Spec Splop_Spec Vehicle_Model Vehicle_Spec Lift_Model Lift_Spec
  Loop_Model Loop_Spec Loop_Proofs Loop_Proofs2 Loop_Proofs3 Mission_Model Mission_Spec Mission_Proofs Step_Model Step_Spec Step_Proofs Step_Proofs2.
From Verif Require Grid_Model Timing_Model Timing_Proofs Timing_Proofs2.
Import ListNotations.
Local Open Scope R_scope.

Lemma executes_last : forall g a t0 x l, l <> [] -> executes g a t0 x l ->
  (c_time (last l no_column) == t0 + inject_Z (Z.of_nat (length l)) * ts g)%Q.
Proof.
  intros g a t0 x l L E. rewrite Timing_Proofs.last_nth. destruct l as [|c l]; [contradiction|].
  destruct (E (length l) ltac:(cbn; lia)) as (A & _). cbn [length]. replace (S (length l) - 1)%nat with (length l) by lia. exact A.
Qed.
Lemma last_app_ne : forall (l0 l : list column), l <> [] -> last (l0 ++ l) no_column = last l no_column.
Proof.
  intros l0 l L. rewrite !Timing_Proofs.last_nth, app_length. destruct l as [|c l]; [contradiction|].
  rewrite app_nth2 by (cbn; lia). f_equal. cbn [length]. lia.
Qed.
Lemma tick_to : forall g (c : Q) w, ~ (c == now w)%Q -> (now (tick g (c - now w) w) == c)%Q.
Proof.
  intros g c w H. unfold tick. cbn [now]. unfold Timing_Model.chosen.
  destruct (Qeq_bool (c - now w) 0) eqn:Z; [|ring]. apply Qeq_bool_iff in Z. exfalso. apply H. Lqa.lra.
Qed.
Lemma samples_pos : forall g K, (0 < ts g)%Q -> (1 <= K)%nat -> (0 < inject_Z (Z.of_nat K) * ts g)%Q.
Proof. intros g K A B. apply Qmult_lt_0_compat; [apply Timing_Proofs2.zq_pos; lia|exact A]. Qed.

Theorem run_once_plan : forall g N a w, whole_horizon g N -> proper_answer g a -> wellformed g w ->
  exists w' l0 l, run_once g None a w = Some w' /\ before g a w l0 /\ log w' = Some (l0 ++ l) /\ length l = N /\
    executes g a (now w) (c_state (last l0 no_column)) l /\
    (now w' == now w + horizon g)%Q /\ (c_time (last l no_column) == now w')%Q /\
    (ideal_update g = true -> c_state (last l no_column) = map (fun i => call (path a i) 1) (seq 0 (dim g))) /\
    obstacles w' = map (simulate_obstacle g (horizon g - rel g (now w) (now w))) (obstacles w).
Proof.
  intros g N a w W PA WF. destruct (plan_once_ok g N a w W PA) as (p & E & L & P).
  pose proof W as (A & B & C).
  set (w2 := planned_once w g p) in *.
  pose proof (started_before g N a w p W L P) as BF. fold w2 in BF.
  destruct (before_wf g a w _ WF BF) as [NE LS].
  set (l0 := started w2 p) in *. set (l := appended g N p (c_state (last l0 no_column))).
  assert (EX : executes g a (now w) (c_state (last l0 no_column)) l).
  { apply (appended_executes g N a w p N); auto. }
  assert (LL : length l = N) by apply appended_length.
  assert (LN : l <> []) by (intros Q; rewrite Q in LL; cbn in LL; lia).
  pose proof (executes_last g a _ _ l LN EX) as TL. rewrite LL in TL.
  assert (D : (horizon g - rel g (now w2) (start_time w2) == inject_Z (Z.of_nat N) * ts g)%Q).
  { rewrite (rel_0 g (now w2) (start_time w2)) by reflexivity. rewrite C. ring. }
  assert (S : simulate_for g None w2 = Some (mkW (now w2) (dep_now w2) (iteration0 w2) (start_time w2) (Some (l0 ++ l)) (plan w2)
      (p_state w2) (p_input w2) (map (simulate_obstacle g (horizon g - rel g (now w2) (start_time w2))) (obstacles w2)))).
  { unfold simulate_for. rewrite (simulate_cols g _ N w2 p A D eq_refl ltac:(lia)). reflexivity. }
  unfold run_once. rewrite E, S.
  match goal with |- context [tick g _ ?x] => set (w3 := x) end.
  assert (LT : latest w3 = last l no_column) by (unfold latest, w3; cbn [log]; apply last_app_ne, LN).
  rewrite LT. pose proof (samples_pos g N A B) as SP.
  pose proof (tick_to g (c_time (last l no_column)) w3 ltac:(cbn [now w3 w2 planned_once]; rewrite TL; intros Q; Lqa.lra)) as TT.
  eexists. exists l0, l. split; [reflexivity|]. split; [exact BF|]. split; [reflexivity|]. split; [exact LL|].
  split; [exact EX|].
  split; [rewrite TT, TL, C; reflexivity|]. split; [rewrite TT; reflexivity|]. split; [|reflexivity].
  intros ID. rewrite Timing_Proofs.last_nth, LL. destruct (EX (N - 1)%nat ltac:(lia)) as (_ & _ & _ & ST). rewrite ST, ID.
  apply map_ext. intros i. unfold plan_at. replace (Datatypes.S (N - 1)) with N by lia.
  assert (HH : INR N * Q2R (ts g) = Q2R (horizon g)) by (rewrite (Qeq_eqR _ _ C), Q2R_nat; reflexivity).
  rewrite HH. assert (HP : 0 < Q2R (horizon g)) by (apply Q2R_pos; rewrite C; exact SP).
  unfold Rdiv. rewrite Rinv_r by lra. cbn [pow]. rewrite Rinv_1, Rmult_1_r. reflexivity.
Qed.

(** the last column after a hard stop *)
Definition halted (g : settings) (e : list R) (n : nat) (c : column) : column :=
  mkC (c_time c) (vadd (c_state c) e) (repeat 0 n) (c_dinput c).
Lemma set_last_snoc : forall f l c, set_last f (l ++ [c]) = l ++ [f c].
Proof.
  intros f l c. unfold set_last. destruct (l ++ [c]) eqn:E; [destruct l; discriminate|]. rewrite <- E.
  rewrite removelast_last, last_last. reflexivity.
Qed.
Lemma hard_stop_shape : forall g t e w w1 l c, simulate_for g (Some t) w = Some w1 -> log w1 = Some (l ++ [c]) ->
  hard_stop g t e w = Some (mkW (now w1) (dep_now w1) (iteration0 w1) (start_time w1)
     (Some (l ++ [halted g e (length (p_input w1)) c])) (plan w1) (vadd (c_state c) e) (repeat 0 (length (p_input w1))) (obstacles w1)).
Proof.
  intros g t e w w1 l c S L. unfold hard_stop. rewrite S. unfold overrule_input, overrule_state, latest.
  cbn [now dep_now iteration0 start_time log plan p_state p_input obstacles]. rewrite L. cbn [option_map].
  rewrite last_last, !set_last_snoc. reflexivity.
Qed.


Theorem run_once_hard : forall g N a w t e K, whole_horizon g N -> proper_answer g a -> wellformed g w ->
  (log w = None -> length (p_input w) = dim g) -> (1 <= K)%nat -> (t == inject_Z (Z.of_nat K) * ts g)%Q -> length e = dim g ->
  exists w' l0 l, let c := last l no_column in
    run_once g (Some (t, e)) a w = Some w' /\ before g a w l0 /\ length l = Nat.min K N /\
    executes g a (now w) (c_state (last l0 no_column)) l /\
    log w' = Some (l0 ++ removelast l ++ [mkC (c_time c) (vadd (c_state c) e) (repeat 0 (dim g)) (c_dinput c)]) /\
    (now w' == c_time c)%Q /\ (now w' == now w + inject_Z (Z.of_nat (Nat.min K N)) * ts g)%Q /\
    wellformed g w' /\ p_state w' = vadd (c_state c) e /\ p_input w' = repeat 0 (dim g) /\
    next_start g w' = Some (vadd (c_state c) e, repeat 0 (dim g)).
Proof.
  intros g N a w t e K W PA WF PI K1 T LE. destruct (plan_once_ok g N a w W PA) as (p & E & L & P).
  pose proof W as (A & B & C).
  set (w2 := planned_once w g p) in *.
  pose proof (started_before g N a w p W L P) as BF. fold w2 in BF.
  destruct (before_wf g a w _ WF BF) as [NE LS].
  set (M := Nat.min K N). assert (M1 : (1 <= M)%nat) by (unfold M; lia).
  set (l0 := started w2 p) in *. set (l := appended g M p (c_state (last l0 no_column))).
  assert (EX : executes g a (now w) (c_state (last l0 no_column)) l).
  { apply (appended_executes g N a w p M); auto. unfold M; lia. }
  assert (LL : length l = M) by apply appended_length.
  assert (LN : l <> []) by (intros Q; rewrite Q in LL; cbn in LL; lia).
  pose proof (executes_last g a _ _ l LN EX) as TL. rewrite LL in TL.
  pose proof (simulated_time g N t K W T (rel g (now w2) (start_time w2)) (rel_0 g _ _ ltac:(reflexivity))) as D. fold M in D.
  remember (Timing_Model.sim_time (horizon g) (rel g (now w2) (start_time w2)) t) as d eqn:Hd.
  assert (S : simulate_for g (Some t) w2 = Some (mkW (now w2) (dep_now w2) (iteration0 w2) (start_time w2) (Some (l0 ++ l)) (plan w2)
      (p_state w2) (p_input w2) (map (simulate_obstacle g d) (obstacles w2)))).
  { unfold simulate_for. rewrite <- Hd. rewrite (simulate_cols g d M w2 p A D eq_refl ltac:(unfold M; lia)). reflexivity. }
  pose proof (app_removelast_last no_column LN) as SP. set (c := last l no_column) in *.
  assert (PL : length (p_input w2) = dim g).
  { cbn [w2 planned_once p_input]. destruct (log w) eqn:LW; [apply repeat_length|apply PI; reflexivity]. }
  assert (LC : length (c_state c) = dim g).
  { unfold c. rewrite Timing_Proofs.last_nth. destruct (EX (length l - 1)%nat ltac:(lia)) as (_ & _ & _ & ST).
    rewrite ST, map_length, seq_length. reflexivity. }
  assert (H : hard_stop g t e w2 = Some (mkW (now w2) (dep_now w2) (iteration0 w2) (start_time w2)
     (Some (l0 ++ removelast l ++ [halted g e (dim g) c])) (plan w2) (vadd (c_state c) e) (repeat 0 (dim g)) (map (simulate_obstacle g d) (obstacles w2)))).
  { rewrite (hard_stop_shape g t e w2 _ (l0 ++ removelast l) c S).
    - cbn [now dep_now iteration0 start_time plan p_input obstacles]. rewrite PL, <- app_assoc. reflexivity.
    - cbn [log]. rewrite <- app_assoc, <- SP. reflexivity. }
  unfold run_once. rewrite E, H.
  match goal with |- context [tick g _ ?x] => set (w3 := x) end.
  assert (LT : latest w3 = halted g e (dim g) c).
  { unfold latest, w3. cbn [log]. rewrite app_assoc, last_last. reflexivity. }
  rewrite LT. cbn [c_time halted].
  pose proof (samples_pos g M A M1) as SM.
  pose proof (tick_to g (c_time c) w3 ltac:(cbn [now w3 w2 planned_once]; rewrite TL; intros Q; Lqa.lra)) as TT.
  eexists. exists l0, l. cbv zeta. fold c. split; [reflexivity|]. split; [exact BF|]. split; [exact LL|]. split; [exact EX|].
  split; [reflexivity|]. split; [exact TT|]. split; [rewrite TT, TL; reflexivity|].
  assert (VL : length (vadd (c_state c) e) = dim g) by (rewrite vadd_length; lia).
  split; [|split; [reflexivity|split; [reflexivity|]]].
  - unfold wellformed. cbn [tick log w3]. split; [intros Q; destruct l0; [contradiction|discriminate]|].
    rewrite app_assoc, last_last. exact VL.
  - unfold next_start. rewrite prepared_reset. cbn [tick log w3 p_state p_input]. rewrite app_assoc, last_last. reflexivity.
Qed.
(** a plan for the next run that starts right, starts at the perturbed state, at rest *)
Theorem replan : forall g w b s i w1, next_start g w = Some (s, i) -> prepared g (reset w) = Some w1 -> starts_right g w1 b ->
  forall k, (k < dim g)%nat -> plan_at g b 0 k 0 = nth k s 0 /\ plan_at g b 1 k 0 = nth k i 0.
Proof.
  intros g w b s i w1 NX PR ST k Hk. unfold next_start in NX. rewrite PR in NX. injection NX as <- <-.
  rewrite prepared_reset in PR. destruct (ST k Hk) as [X Y]. injection PR as <-.
  cbn [now start_time] in X, Y. rewrite (course_plan g b _ 0) in X by (apply rel_0; reflexivity).
  rewrite (course_plan g b _ 1) in Y by (apply rel_0; reflexivity). split; assumption.
Qed.
(** a hard stop at time 0: nothing is simulated, but the clock advances *)
Theorem hard_zero : forall g N a w e, whole_horizon g N -> proper_answer g a -> ~ (upd g == 0)%Q ->
  exists w', run_once g (Some (0%Q, e)) a w = Some w' /\
    (c_time (latest w') == match log w with Some l => c_time (last l no_column) | None => now w end)%Q /\
    (log w = None -> (now w' == now w + upd g)%Q) /\
    (forall l, log w = Some l -> (c_time (last l no_column) == now w)%Q -> (now w' == now w + upd g)%Q).
Proof.
  intros g N a w e W PA U. destruct (plan_once_ok g N a w W PA) as (p & E & L & P). pose proof W as (A & B & C).
  set (w2 := planned_once w g p) in *.
  pose proof (started_before g N a w p W L P) as BF. fold w2 in BF. set (l0 := started w2 p) in *.
  pose proof (simulated_time g N 0 0 W ltac:(change (inject_Z (Z.of_nat 0)) with 0%Q; ring) (rel g (now w2) (start_time w2)) (rel_0 g _ _ ltac:(reflexivity))) as D.
  rewrite Nat.min_0_l in D.
  remember (Timing_Model.sim_time (horizon g) (rel g (now w2) (start_time w2)) 0) as d eqn:Hd.
  assert (S : simulate_for g (Some 0%Q) w2 = Some (mkW (now w2) (dep_now w2) (iteration0 w2) (start_time w2) (Some l0) (plan w2)
      (p_state w2) (p_input w2) (map (simulate_obstacle g d) (obstacles w2)))).
  { unfold simulate_for. rewrite <- Hd. rewrite (simulate_cols g d 0 w2 p A D eq_refl ltac:(lia)). fold l0.
    cbn [appended seq map]. rewrite app_nil_r. reflexivity. }
  assert (LT : exists w3, hard_stop g 0 e w2 = Some w3 /\ now w3 = now w /\ c_time (latest w3) = c_time (last l0 no_column)).
  { unfold hard_stop. rewrite S. eexists. split; [reflexivity|]. split; [reflexivity|]. unfold latest, overrule_input, overrule_state. cbn [log option_map].
    destruct l0 as [|x l0'] eqn:EL; [reflexivity|]. rewrite (app_removelast_last no_column (l := x :: l0')) at 1 by discriminate.
    rewrite !set_last_snoc, last_last. reflexivity. }
  destruct LT as (w3 & HS & N3 & T3). unfold run_once. rewrite E, HS. eexists. split; [reflexivity|].
  assert (LL : latest (tick g (c_time (latest w3) - now w3) w3) = latest w3) by reflexivity.
  rewrite LL, T3, N3. cbn [tick now].
  assert (Z : forall q, (q == now w)%Q -> (now (tick g (q - now w) w3) == now w + upd g)%Q).
  { intros q Q. unfold tick. cbn [now]. rewrite N3. unfold Timing_Model.chosen.
    assert (X : Qeq_bool (q - now w) 0 = true) by (apply Qeq_bool_iff; rewrite Q; ring). rewrite X. reflexivity. }
  split; [|split].
  - destruct BF as [F|(F & c & F2 & F3 & _)]; rewrite F; [reflexivity|]. rewrite F2. exact F3.
  - intros F. apply Z. destruct BF as [F'|(_ & c & F2 & F3 & _)]; [congruence|]. rewrite F2. exact F3.
  - intros l F T. apply Z. destruct BF as [F'|(F' & _)]; [|congruence]. rewrite F in F'. injection F' as ->. exact T.
Qed.
