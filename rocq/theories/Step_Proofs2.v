(** One plan from start to end: run_once and hard stops; two steps of another
    length. *)
From Coq Require Import Reals QArith Qreals ZArith Lra Lia List Arith Bool.
From Coq Require Lqa.
From Verif Require Import Spline_Model Spline_Spec Splop_Spec Vehicle_Model Vehicle_Spec Lift_Model Lift_Spec
  Loop_Model Loop_Spec Loop_Proofs Loop_Proofs2 Loop_Proofs3 Mission_Model Mission_Spec Mission_Proofs Step_Model Step_Spec Step_Proofs.
From Verif Require Grid_Model Timing_Model Timing_Proofs Timing_Proofs2 Concat_Model.
Import ListNotations.
Local Open Scope R_scope.

Lemma rel_0 : forall g t s, (t == s)%Q -> (rel g t s == 0)%Q.
Proof.
  intros g t s E. rewrite (phase_rel g 0 t s); [|rewrite E; change (inject_Z (Z.of_nat 0)) with 0%Q; ring].
  unfold phase, Timing_Model.rel_time, Timing_Model.pmod.
  assert (R : (Timing_Model.round6 (inject_Z (Z.of_nat 0) * upd g) == 0)%Q).
  { assert (Z : (inject_Z (Z.of_nat 0) * upd g == inject_Z 0)%Q) by (change (inject_Z (Z.of_nat 0)) with 0%Q; ring).
    assert (Q : (Timing_Model.round6 (inject_Z (Z.of_nat 0) * upd g) == Timing_Model.round6 (inject_Z 0))%Q)
      by (apply Qle_antisym; apply Timing_Proofs.round6_mono; rewrite Z; apply Qle_refl).
    rewrite Q, (Timing_Proofs.round6_int 0). reflexivity. }
  assert (F : Qround.Qfloor (Timing_Model.round6 (inject_Z (Z.of_nat 0) * upd g) / knot_time g) = 0%Z).
  { transitivity (Qround.Qfloor 0); [|reflexivity]. apply Qround.Qfloor_comp. rewrite R. unfold Qdiv. ring. }
  rewrite F, R. change (inject_Z 0) with 0%Q. ring.
Qed.
Lemma course_plan : forall g a r o i t, (r == 0)%Q -> course g a r o i t = plan_at g a o i t.
Proof. intros g a r o i t E. unfold course, plan_at. rewrite (Qeq_eqR _ _ E). replace (Q2R 0) with 0 by (unfold Q2R; cbn; lra). rewrite Rplus_0_l. reflexivity. Qed.

Lemma store_whole : forall g N a t s, whole_horizon g N -> proper_answer g a -> (t == s)%Q ->
  exists p, store g a t s = Some p /\ length p = S N /\
    forall j, (j <= N)%nat -> planned g a t 0 j (nth j p no_column).
Proof.
  intros g N a t s (A & B & C) [PA _] TS. pose proof (rel_0 g t s TS) as R0.
  assert (HT : 0 < Q2R (horizon g)).
  { apply Q2R_pos. rewrite C. apply Qmult_lt_0_compat; [apply Timing_Proofs2.zq_pos; lia|exact A]. }
  unfold store, Concat_Model.store_splines, Concat_Model.store_insert. cbn [Concat_Model.concat_splines Concat_Model.concat_loop].
  set (axis := Timing_Model.time_axis (horizon g) (rel g t s) (ts g)).
  assert (AX : forall j, (j <= N)%nat -> (N < List.length axis)%nat /\ (nth j axis 0 == rel g t s + inject_Z (Z.of_nat j) * ts g)%Q).
  { intros j J. apply axis_nth; auto. rewrite R0, <- C. Lqa.lra. }
  eexists. split; [reflexivity|]. rewrite map_length. split.
  { unfold axis. rewrite Timing_Proofs2.axis_length. unfold Timing_Model.store_count.
    rewrite (Timing_Proofs.n_samp_whole (horizon g - rel g t s) (ts g) (Z.of_nat N) A); [lia|]. rewrite R0, C. ring. }
  intros j J. destruct (AX j J) as [L V]. destruct (AX 0%nat ltac:(lia)) as [_ V0].
  assert (H0 : (hd 0 axis == rel g t s)%Q).
  { replace (hd 0%Q axis) with (nth 0 axis 0%Q) by (destruct axis; reflexivity). rewrite V0. change (inject_Z (Z.of_nat 0)) with 0%Q. ring. }
  rewrite (nth_map_in _ axis j no_column 0%Q) by lia. unfold planned, signals_at. cbn [c_time c_state c_input c_dinput].
  assert (VR : Q2R (nth j axis 0%Q) = Q2R 0 + INR j * Q2R (ts g)).
  { rewrite (Qeq_eqR _ _ V), Q2R_plus, Q2R_nat, (Qeq_eqR _ _ R0). reflexivity. }
  assert (Z0 : Q2R 0 = 0) by (unfold Q2R; cbn; lra).
  assert (XR : 0 <= Q2R 0 + INR j * Q2R (ts g) <= Q2R (horizon g)).
  { rewrite Z0, (Qeq_eqR _ _ C), Q2R_nat. pose proof (Q2R_pos _ A) as PT. pose proof (pos_INR j). apply le_INR in J.
    assert (INR j * Q2R (ts g) <= INR N * Q2R (ts g)) by (apply Rmult_le_compat_r; lra).
    assert (0 <= INR j * Q2R (ts g)) by (apply Rmult_le_pos; lra). lra. }
  rewrite !map_map, VR.
  assert (SV : forall o i, (o <= 2)%nat -> (i < dim g)%nat ->
     splev (derivative (scale (path a i) (Q2R (horizon g)) 0) o) (Q2R 0 + INR j * Q2R (ts g)) =
     course g a 0 o i (INR j * Q2R (ts g))).
  { intros o i Ho Hi. destruct (PA i Hi) as (P1 & P2 & P3). unfold course. apply stored_value; auto. }
  split; [|split; [|split]].
  - rewrite V, H0. Lqa.lra.
  - apply map_ext_in. intros i Hi. apply in_seq in Hi. apply (SV 0%nat i); lia.
  - apply map_ext_in. intros i Hi. apply in_seq in Hi. apply (SV 1%nat i); lia.
  - apply map_ext_in. intros i Hi. apply in_seq in Hi. apply (SV 2%nat i); lia.
Qed.

Lemma simulate_cols : forall g d K w p, (0 < ts g)%Q -> (d == inject_Z (Z.of_nat K) * ts g)%Q ->
  plan w = Some p -> (K < length p)%nat ->
  simulate_vehicle g d w = Some (started w p ++ appended g K p (c_state (last (started w p) no_column))).
Proof.
  intros g d K w p A D P L. unfold simulate_vehicle. rewrite P.
  rewrite (Timing_Proofs.n_samp_whole d (ts g) (Z.of_nat K) A D).
  assert (N2 : Timing_Model.pint (d / ts g) = Z.of_nat K).
  { apply Timing_Proofs.pint_eq. rewrite D. field. intros F. Lqa.lra. }
  rewrite N2, !Nat2Z.id. fold (started w p). set (l0 := started w p).
  assert (AP : appended g K p (c_state (last l0 no_column)) =
     if ideal_update g then cols K p
     else map (fun q => mkC (c_time (fst q)) (snd q) (c_input (fst q)) (c_dinput (fst q)))
       (combine (cols K p) (cols K (integrate (Q2R (ts g)) K (c_state (last l0 no_column)) (map c_input p))))).
  { unfold appended, next_state. destruct (ideal_update g).
    - rewrite (firstn_skip no_column p K L). apply map_ext. intros j. cbn zeta. destruct (nth j p no_column); reflexivity.
    - rewrite (firstn_skip no_column p K L), (firstn_skip [] (integrate _ _ _ _) K) by (rewrite integrate_length; lia).
      rewrite combine_maps, map_map. apply map_ext. intros j. reflexivity. }
  rewrite AP. destruct (ideal_update g); reflexivity.
Qed.

Lemma total_S : forall n f, total (S n) f = total n f + f n.
Proof.
  intros n f. unfold total. rewrite seq_S, map_app, fold_right_app. cbn [map fold_right plus].
  rewrite Rplus_0_r. generalize (map f (seq 0 n)). intros l. induction l as [|x l IH]; cbn [fold_right]; [lra|rewrite IH; lra].
Qed.
Lemma map_seq_of : forall (f : nat -> R) d s, length s = d -> (forall i, (i < d)%nat -> nth i s 0 = f i) -> s = map f (seq 0 d).
Proof. intros f d s L E. symmetry. apply map_seq_nth; [exact L|]. intros i Hi. symmetry. apply E, Hi. Qed.

Lemma integrated : forall g a K p x, (K < length p)%nat -> length x = dim g ->
  (forall j, (j <= K)%nat -> c_input (nth j p no_column) = map (fun i => plan_at g a 1 i (INR j * Q2R (ts g))) (seq 0 (dim g))) ->
  forall j, (j <= K)%nat ->
  nth j (integrate (Q2R (ts g)) K x (map c_input p)) [] =
  map (fun i => nth i x 0 + total j (fun q => Q2R (ts g) * ((plan_at g a 1 i (INR q * Q2R (ts g)) + plan_at g a 1 i (INR (S q) * Q2R (ts g))) / 2)))
      (seq 0 (dim g)).
Proof.
  intros g a K p x L X I j. induction j as [|j IH]; intros J.
  - rewrite integrate_0. apply map_seq_of; [exact X|]. intros i Hi. unfold total. cbn. lra.
  - rewrite integrate_step by (rewrite ?map_length; lia). rewrite IH by lia.
    assert (NC : forall q, (q <= K)%nat -> nth q (map c_input p) [] = map (fun i => plan_at g a 1 i (INR q * Q2R (ts g))) (seq 0 (dim g))).
    { intros q Hq. rewrite nth_map_col by lia. apply I, Hq. }
    rewrite !NC by lia. apply map_seq_of.
    + apply trapezoid_length; rewrite map_length, seq_length; reflexivity.
    + intros i Hi. rewrite (trapezoid_nth _ _ _ _ (dim g)) by (rewrite map_length, seq_length; reflexivity).
      rewrite !Timing_Proofs.nth_map_seq by lia. rewrite total_S, !Nat.add_0_l. lra.
Qed.

(** ** the plan of run_once, executed for K samples *)
Lemma prepared_reset : forall g w, prepared g (reset w) =
  Some (mkW (now w) (dep_now w) false (now w) (log w) (plan w)
     (match log w with Some l => c_state (last l no_column) | None => p_state w end)
     (match log w with Some l => repeat 0 (dim g) | None => p_input w end) (obstacles w)).
Proof.
  intros g w. unfold prepared. cbn [reset iteration0 now]. unfold predict. cbn [reset now log p_state p_input].
  assert (X : Qeq_bool (now w) (now w) = true) by (apply Qeq_bool_iff; reflexivity). rewrite X.
  destruct (log w); reflexivity.
Qed.
Definition planned_once (w : world) (g : settings) (p : list column) : world :=
  mkW (now w) (now w) false (now w) (log w) (Some p)
     (match log w with Some l => c_state (last l no_column) | None => p_state w end)
     (match log w with Some l => repeat 0 (dim g) | None => p_input w end) (obstacles w).
Lemma plan_once_ok : forall g N a w, whole_horizon g N -> proper_answer g a ->
  exists p, plan_once g a w = Some (planned_once w g p) /\ length p = S N /\
    forall j, (j <= N)%nat -> planned g a (now w) 0 j (nth j p no_column).
Proof.
  intros g N a w W PA. unfold plan_once. rewrite prepared_reset. unfold deployed. cbn [now start_time].
  destruct (store_whole g N a (now w) (now w) W PA ltac:(reflexivity)) as (p & E & L & P).
  rewrite E. exists p. split; [reflexivity|]. split; [exact L|exact P].
Qed.
Lemma planned_at : forall g a t j c, planned g a t 0 j c ->
  (c_time c == t + inject_Z (Z.of_nat j) * ts g)%Q /\
  c_state c = map (fun i => plan_at g a 0 i (INR j * Q2R (ts g))) (seq 0 (dim g)) /\
  c_input c = map (fun i => plan_at g a 1 i (INR j * Q2R (ts g))) (seq 0 (dim g)) /\
  c_dinput c = map (fun i => plan_at g a 2 i (INR j * Q2R (ts g))) (seq 0 (dim g)).
Proof.
  intros g a t j c (A & B & C & D). split; [exact A|]. rewrite B, C, D.
  split; [|split]; apply map_ext; intros i; apply course_plan; reflexivity.
Qed.
Lemma started_before : forall g N a w p, whole_horizon g N -> length p = S N ->
  (forall j, (j <= N)%nat -> planned g a (now w) 0 j (nth j p no_column)) ->
  before g a w (started (planned_once w g p) p).
Proof.
  intros g N a w p (_ & _ & _) L P. unfold before, started. cbn [log planned_once].
  destruct (log w) as [l|]; [left; reflexivity|]. right. split; [reflexivity|].
  destruct p as [|c p]; [discriminate|]. exists c. split; [reflexivity|].
  destruct (planned_at _ _ _ _ _ (P 0%nat ltac:(lia))) as (A & B & C & _). cbn [nth] in A, B, C.
  rewrite A, B, C. split; [change (inject_Z (Z.of_nat 0)) with 0%Q; ring|]. cbn [INR]. rewrite Rmult_0_l. split; reflexivity.
Qed.
Lemma before_wf : forall g a w l0, wellformed g w -> before g a w l0 -> l0 <> [] /\ length (c_state (last l0 no_column)) = dim g.
Proof.
  intros g a w l0 W [B|(_ & c & -> & _ & S & _)].
  - unfold wellformed in W. rewrite B in W. exact W.
  - split; [discriminate|]. cbn [last]. rewrite S, map_length, seq_length. reflexivity.
Qed.
Lemma appended_executes : forall g N a w p K x, whole_horizon g N -> length p = S N -> (K <= N)%nat -> length x = dim g ->
  (forall j, (j <= N)%nat -> planned g a (now w) 0 j (nth j p no_column)) ->
  executes g a (now w) x (appended g K p x).
Proof.
  intros g N a w p K x W L KN X P j. rewrite appended_length. intros J.
  pose proof (appended_nth g K p x (S j) ltac:(lia)) as E. replace (S j - 1)%nat with j in E by lia. rewrite E.
  cbn [c_time c_state c_input c_dinput]. destruct (planned_at _ _ _ _ _ (P (S j) ltac:(lia))) as (A & B & C & D).
  split; [exact A|]. split; [exact C|]. split; [exact D|]. unfold next_state. destruct (ideal_update g); [exact B|].
  apply (integrated g a K p x ltac:(lia) X); [|lia].
  intros q Q. apply (planned_at _ _ _ _ _ (P q ltac:(lia))).
Qed.

(** the time that is simulated: whole samples, at most the horizon *)
Lemma simulated_time : forall g N t K, whole_horizon g N -> (t == inject_Z (Z.of_nat K) * ts g)%Q -> forall r, (r == 0)%Q ->
  (Timing_Model.sim_time (horizon g) r t == inject_Z (Z.of_nat (Nat.min K N)) * ts g)%Q.
Proof.
  intros g N t K (A & B & C) T r R. unfold Timing_Model.sim_time, Grid_Model.Qltb.
  destruct (Qle_bool t (horizon g - r)) eqn:L; cbn [negb].
  - apply Qle_bool_iff in L. rewrite R, T, C in L. assert (K <= N)%nat.
    { destruct (le_lt_dec K N) as [H|H]; [exact H|]. exfalso.
      assert (X : (inject_Z (Z.of_nat N) < inject_Z (Z.of_nat K))%Q) by (rewrite <- Zlt_Qlt; lia).
      pose proof (Qmult_lt_compat_r _ _ (ts g) A X). Lqa.lra. }
    rewrite Nat.min_l by exact H. exact T.
  - assert (N <= K)%nat.
    { destruct (le_lt_dec N K) as [H|H]; [exact H|]. exfalso.
      assert (X : (inject_Z (Z.of_nat K) < inject_Z (Z.of_nat N))%Q) by (rewrite <- Zlt_Qlt; lia).
      pose proof (Qmult_lt_compat_r _ _ (ts g) A X).
      assert (Y : Qle_bool t (horizon g - r) = true) by (apply Qle_bool_iff; rewrite R, T, C; Lqa.lra). congruence. }
    rewrite Nat.min_r by exact H. rewrite R, C. ring.
Qed.
