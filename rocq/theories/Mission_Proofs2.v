(** One run of a mission. *)
From Coq Require Import Reals QArith Qround Qreals ZArith Lra Lia List Arith Bool.
From Coq Require Lqa.
From Verif Require Import Spline_Model Spline_Spec Splop_Spec Vehicle_Model Vehicle_Spec Vehicle_Proofs Lift_Model Lift_Spec
  Loop_Model Loop_Spec Loop_Proofs Loop_Proofs2 Loop_Proofs3 Loop_Proofs9 Loop_Proofs10 Loop_Proofs11 Mission_Model Mission_Spec Mission_Proofs.
From Verif Require Grid_Proofs Grid_Model Timing_Model Timing_Proofs Timing_Proofs2 Obst_Proofs2.
Import ListNotations.
Local Open Scope R_scope.

Lemma accepted_timeless : forall g tol limits goal vchk rv sd, timeless g (accepted g tol limits goal vchk rv sd).
Proof.
  intros g tol limits goal vchk rv sd W w a E A B C H. unfold accepted in *. rewrite A, B, C, (Qeq_eqR _ _ E) in H. exact H.
Qed.
Lemma fine_timeless : forall g tol limits goal vchk rv sd, timeless g (fine g tol limits goal vchk rv sd).
Proof. intros g tol limits goal vchk rv sd W w a E A B C [H1 H2]. split; [exact H1|]. apply (accepted_timeless _ _ _ _ _ _ _ W); assumption. Qed.

(** before the first run resetting changes nothing *)
Lemma reset_0 : forall x i obs, reset (world0 x i obs) = world0 x i obs.
Proof. reflexivity. Qed.

Lemma ready_reset : forall g s x i l, placed g s x i -> log (world_of s) = Some l -> l <> [] -> ready g (reset (world_of s)) l /\
  i = repeat 0 (dim g) /\ c_state (last l no_column) = x.
Proof.
  intros g s x i l (A & B & C) E NE. destruct C as [C|(C & l' & D1 & D2 & D3)].
  - rewrite C in E. discriminate.
  - rewrite E in D1. injection D1 as <-. split; [|split; assumption].
    split; [exact E|]. split; [exact NE|]. split; [reflexivity|]. rewrite D3. exact A.
Qed.

Lemma drive_answers : forall g m (P : world -> answer -> Prop) s x i as_, steady g m -> placed g s x i ->
  (forall w a, P w a -> starts_right g w a) -> timeless g P -> Forall (proper_answer g) as_ ->
  all_answers P g as_ (reset (world_of s)) -> all_answers P g as_ (world0 x i (obstacles (world_of s))).
Proof.
  intros g m P s x i as_ ST PL PS TP FA AA. pose proof PL as (A & B & [C|(C & l & D1 & D2 & D3)]).
  - rewrite C in AA. rewrite reset_0 in AA. exact AA.
  - destruct (ready_reset g s x i l PL D1 D2) as (R & E1 & E2).
    destruct (twins g m P _ l as_ ST R PS TP FA AA) as (H & _). unfold afresh in H. rewrite E2 in H. rewrite C. exact H.
Qed.

Lemma update_now : forall g a w w', update g a w = Some w' -> dep_now w' = now w'.
Proof.
  intros g a w w' H. unfold update in H. destruct (prepared g w) as [w1|]; [|discriminate].
  unfold deployed in H. destruct (store g a (now w1) (start_time w1)); [|discriminate].
  unfold simulated in H. match type of H with context [match ?x with _ => _ end] => destruct x end; [|discriminate].
  injection H as <-. reflexivity.
Qed.
Lemma run_now : forall g stol goal as_ w w' k, run g stol goal as_ w = Some (w', k) -> dep_now w' = now w'.
Proof.
  intros g stol goal as_. induction as_ as [|a as_ IH]; intros w w' k H; cbn [run] in H; [discriminate|].
  destruct (update g a w) as [w1|] eqn:U; [|discriminate]. destruct (stop_criterium stol goal w1).
  - injection H as <- <-. apply (update_now _ _ _ _ U).
  - destruct (run g stol goal as_ (advance g w1)) as [[w2 j]|] eqn:R; [|discriminate]. injection H as <- <-. apply (IH _ _ _ R).
Qed.

Lemma stopped_now : forall g m w l, steady g m -> log w = Some l -> (c_time (last l no_column) == now w + upd g)%Q ->
  (now (stopped g w) == now w + upd g - (if andb (Grid_Model.Qltb (ts g) 1) (2 <=? m)%nat then ts g else 0))%Q.
Proof.
  intros g m w l ST E T. pose proof ST as (S1 & S2 & S3 & _). pose proof (upd_pos g m ST) as UP.
  unfold stopped. cbn [now]. rewrite E. set (d := (c_time (last l no_column) - now w)%Q).
  assert (D : (d == upd g)%Q) by (unfold d; rewrite T; ring).
  unfold Timing_Model.run_arg. destruct (Grid_Model.Qltb (ts g) 1) eqn:Q; cbn [andb].
  - unfold Timing_Model.chosen. destruct (Nat.leb_spec 2 m) as [M|M].
    + assert (X : (ts g < d)%Q).
      { rewrite D, S3. assert (Y : (1 < inject_Z (Z.of_nat m))%Q) by (change 1%Q with (inject_Z 1); rewrite <- Zlt_Qlt; lia).
        setoid_replace (ts g) with (1 * ts g)%Q at 1 by ring. apply Qmult_lt_compat_r; assumption. }
      unfold Grid_Model.Qmax2. assert (Y : Grid_Model.Qltb 0 (d - ts g) = true) by (apply Grid_Proofs.Qltb_lt; Lqa.lra).
      rewrite Y. assert (Z : Qeq_bool (d - ts g) 0 = false).
      { destruct (Qeq_bool (d - ts g) 0) eqn:B; [|reflexivity]. apply Qeq_bool_iff in B. Lqa.lra. }
      rewrite Z, D. ring.
    + assert (m = 1%nat) by lia. subst m. change (inject_Z (Z.of_nat 1)) with 1%Q in S3.
      assert (Z : Qeq_bool (Grid_Model.Qmax2 0 (d - ts g)) 0 = true).
      { apply Qeq_bool_iff. unfold Grid_Model.Qmax2. destruct (Grid_Model.Qltb 0 (d - ts g)); [|reflexivity]. rewrite D, S3. ring. }
      rewrite Z. ring.
  - cbn [Timing_Model.chosen]. ring.
Qed.

Lemma recorded_records : forall g p v c l, recorded g p v (c :: l) -> records g 0 p v l /\ recorded g p v [c].
Proof.
  intros g p v c l H. split.
  - intros j J. destruct (H (S j) ltac:(cbn; lia)) as (A & B & C).
    change (nth (S j) (c :: l) no_column) with (nth j l no_column) in *. split; [rewrite A; ring|split; assumption].
  - intros j J. cbn in J. assert (j = 0)%nat by lia. subst j. apply (H 0%nat). cbn. lia.
Qed.

(** logs only grow *)
Lemma update_grows : forall g a w w' l, update g a w = Some w' -> log w = Some l -> exists t, log w' = Some (l ++ t).
Proof.
  intros g a w w' l H E. unfold update in H. destruct (prepared g w) as [w1|] eqn:PR; [|discriminate].
  assert (L1 : log w1 = Some l).
  { unfold prepared in PR. match type of PR with context [match ?x with _ => _ end] => destruct x as [[? ?]|] end; [|discriminate].
    injection PR as <-. exact E. }
  unfold deployed in H. destruct (store g a (now w1) (start_time w1)) as [p|]; [|discriminate].
  unfold simulated in H. cbn [now start_time] in H. unfold simulate_vehicle in H. cbn [plan log] in H. rewrite L1 in H.
  destruct (ideal_update g); injection H as <-; cbn [log]; eexists; reflexivity.
Qed.
Lemma passes_grow : forall g as_ w w' l, passes g as_ w = Some w' -> log w = Some l -> exists t, log w' = Some (l ++ t).
Proof.
  intros g as_. induction as_ as [|a as_ IH]; intros w w' l H E.
  - injection H as <-. exists []. rewrite app_nil_r. exact E.
  - cbn [passes] in H. unfold pass in H. destruct (update g a w) as [w1|] eqn:U; [|discriminate].
    destruct (update_grows g a w w1 l U E) as (t & T). destruct (IH _ _ (l ++ t) H T) as (t' & T').
    exists (t ++ t'). rewrite app_assoc. exact T'.
Qed.
Lemma passes_app : forall g as_ bs w, passes g (as_ ++ bs) w = match passes g as_ w with None => None | Some w' => passes g bs w' end.
Proof.
  intros g as_. induction as_ as [|a as_ IH]; intros bs w; [reflexivity|]. cbn [app passes]. destruct (pass g a w); [apply IH|reflexivity].
Qed.

Lemma stop_twin : forall g m k L t W w stol goal, (1 <= k)%nat -> (1 <= m)%nat -> twin g m k L t W w -> stop_criterium stol goal W = stop_criterium stol goal w.
Proof.
  intros g m k L t W w stol goal K M (c0 & l & Lw & p & P & A1 & A2 & A3 & A4 & A5 & A6 & _).
  assert (KM : (0 < k * m)%nat) by nia. unfold stop_criterium. rewrite A1, A2. cbv zeta.
  rewrite (nth_last_app L Lw (k * m) KM A4). change (c0 :: l) with ([c0] ++ l). rewrite (nth_last_app [c0] l (k * m) KM A3).
  destruct (A6 (k * m - 1)%nat ltac:(lia)) as (_ & B & C & _). rewrite B, C. reflexivity.
Qed.

(** the stop criterion after any of the updates *)
Lemma stop_recorded : forall g m (P : world -> answer -> Prop) s0 i0 obs as_ p v stol goal j wj, steady g m -> consistent g ->
  length s0 = dim g -> length i0 = dim g ->
  (forall w a, P w a -> starts_right g w a) -> Forall (proper_answer g) as_ ->
  all_answers P g as_ (world0 s0 i0 obs) -> moves g m as_ s0 i0 obs p v -> (1 <= j <= length as_)%nat ->
  passes g (firstn j as_) (world0 s0 i0 obs) = Some wj ->
  stop_criterium stol goal wj = arrived stol (vsub (map (fun i => p i (at_update g j)) (seq 0 (dim g))) goal) (map (fun i => v i (at_update g j)) (seq 0 (dim g))).
Proof.
  intros g m P s0 i0 obs as_ p v stol goal j wj ST CO LS LI PS FA AA MV J PJ.
  assert (SP : as_ = firstn j as_ ++ skipn j as_) by (symmetry; apply firstn_skipn).
  assert (FA' : Forall (proper_answer g) (firstn j as_)) by (rewrite SP in FA; apply Forall_app in FA; apply FA).
  assert (AA' : all_answers P g (firstn j as_) (world0 s0 i0 obs)) by (rewrite SP in AA; apply all_prefix in AA; exact AA).
  assert (LK : length (firstn j as_) = j) by (rewrite firstn_length; lia).
  destruct (loop_log g m P s0 i0 obs (firstn j as_) ST CO LS LI PS FA' AA') as (w' & E & H & _).
  rewrite PJ in E. injection E as <-. destruct H as [[H _]|(lj & pj & (G & _) & (LL & _) & _)]; [rewrite H in LK; cbn in LK; lia|].
  rewrite LK in LL. destruct MV as (w & l & E1 & E2 & E3 & E4 & _).
  rewrite SP, passes_app, PJ in E1. destruct (passes_grow g _ _ _ lj E1 G) as (t & T). rewrite E2 in T. injection T as T.
  unfold stop_criterium. rewrite G. cbv zeta. rewrite Timing_Proofs.last_nth, LL.
  replace (j * m + 1 - 1)%nat with (j * m)%nat by lia.
  assert (N : nth (j * m) lj no_column = nth (j * m) l no_column) by (rewrite T, app_nth1 by lia; reflexivity).
  rewrite N. destruct (E4 (j * m)%nat) as (_ & B & C); [rewrite T, app_length; lia|]. rewrite B, C.
  replace (INR (j * m) * Q2R (ts g)) with (at_update g j) by (unfold at_update; rewrite (upd_real g m ST), mult_INR; ring).
  reflexivity.
Qed.

Lemma advance_log : forall g w, log (advance g w) = log w.
Proof. reflexivity. Qed.
Lemma stop_advance : forall g stol goal w, stop_criterium stol goal (advance g w) = stop_criterium stol goal w.
Proof. reflexivity. Qed.

Lemma records_later : forall g t p v l L, records g 0 p v l -> length l = length L ->
  (forall j, (j < length l)%nat -> later t (nth j l no_column) (nth j L no_column)) -> records g t p v L.
Proof.
  intros g t p v l L H E X j J. destruct (H j ltac:(lia)) as (A & B & C). destruct (X j ltac:(lia)) as (D1 & D2 & D3 & _).
  rewrite D2, D3. split; [rewrite D1, A; ring|split; assumption].
Qed.

Theorem drive_ok : forall g m (P : world -> answer -> Prop) stol goal as_ s s' x i, steady g m -> consistent g -> stol < 1 ->
  placed g s x i -> (forall w a, P w a -> starts_right g w a) -> timeless g P -> Forall (proper_answer g) as_ ->
  all_answers P g as_ (reset (world_of s)) -> drive g stol goal as_ s = Some s' ->
  exists k p v, travels g m k as_ s s' x i p v /\
    (let near n := let E := at_update g n in
       sqrt (sumsq (vsub (map (fun i => p i E) (seq 0 (dim g))) goal)) <= stol /\
       sqrt (sumsq (map (fun i => v i E) (seq 0 (dim g)))) <= stol in
     near (S k) /\ forall n, (1 <= n <= k)%nat -> ~ near n) /\
    obstacles (world_of s') = map (obstacle_after g (S k)) (obstacles (world_of s)) /\
    last_answer s' = nth_error as_ k /\
    cost s' = cost s + accrued g 0 (firstn (S k) as_) /\
    (now (world_of s') == now (world_of s) + inject_Z (Z.of_nat (S k)) * upd g
       - (if andb (Grid_Model.Qltb (ts g) 1) (2 <=? m)%nat then ts g else 0))%Q.
Proof.
  intros g m P stol goal as_ s s' x i ST CO T1 PL PS TP FA AA DR. pose proof ST as (S1 & S2 & S3 & _).
  pose proof (drive_answers g m P s x i as_ ST PL PS TP FA AA) as AF. set (obs := obstacles (world_of s)) in *.
  unfold drive in DR. set (W0 := reset (world_of s)) in *.
  destruct (run g stol goal as_ W0) as [[W' k]|] eqn:R; [|discriminate].
  destruct (run_passes g stol goal as_ W0 W' k R) as (KL & PP & SC & NB). pose proof (run_now _ _ _ _ _ _ _ R) as RN.
  set (K := S k) in *.
  destruct (objective g (firstn K as_) W0 (cost s)) as [J|] eqn:OJ; [|discriminate]. injection DR as <-.
  assert (SP : as_ = firstn K as_ ++ skipn K as_) by (symmetry; apply firstn_skipn).
  assert (FA' : Forall (proper_answer g) (firstn K as_)) by (rewrite SP in FA; apply Forall_app in FA; apply FA).
  assert (AA' : all_answers P g (firstn K as_) W0) by (rewrite SP in AA; apply all_prefix in AA; exact AA).
  assert (AF' : all_answers P g (firstn K as_) (world0 x i obs)) by (rewrite SP in AF; apply all_prefix in AF; exact AF).
  assert (LK : length (firstn K as_) = K) by (rewrite firstn_length; lia).
  assert (NE : firstn K as_ <> []) by (intros C; rewrite C in LK; cbn in LK; lia).
  pose proof PL as (LX & LI & PC).
  destruct (loop_moves g m P x i obs (firstn K as_) ST CO LX LI NE PS FA' AF') as (p & v & MV).
  destruct (loop_log g m P x i obs (firstn K as_) ST CO LX LI PS FA' AF') as (w & EW & HW & OW & _).
  pose proof MV as (w' & l & M1 & M2 & M3 & M4 & _). rewrite EW in M1. injection M1 as <-. rewrite LK in M3.
  destruct l as [|c0 l]; [cbn in M3; lia|]. destruct (recorded_records g p v c0 l M4) as (RT & RC).
  assert (LL : length l = (K * m)%nat) by (cbn [length] in M3; lia).
  (* what holds in both cases *)
  assert (X : exists l0 Lw, log W' = Some (l0 ++ Lw) /\ length Lw = (K * m)%nat /\ records g (now (world_of s)) p v Lw /\
     (log (world_of s) = Some l0 \/ log (world_of s) = None /\ length l0 = 1%nat /\ recorded g p v l0) /\
     J = cost s + accrued g 0 (firstn K as_) /\ obstacles W' = obstacles w /\
     (now W' + upd g == now (world_of s) + inject_Z (Z.of_nat K) * upd g)%Q /\
     stop_criterium stol goal w = true /\
     (forall j wj, (1 <= j <= k)%nat -> passes g (firstn j as_) (world0 x i obs) = Some wj -> stop_criterium stol goal wj = false)).
  { destruct PC as [PC|(PC & L & D1 & D2 & D3)].
    - assert (W0 = world0 x i obs) by (unfold W0; rewrite PC; apply reset_0). rewrite H in PP, OJ, NB.
      rewrite EW in PP. injection PP as PP.
      destruct HW as [[HW _]|(l' & p' & (G1 & G2 & G3 & G4 & _) & _ & _)]; [congruence|].
      rewrite M2 in G1. injection G1 as <-.
      exists [c0], l. rewrite PP in M2. rewrite advance_log in M2. split; [exact M2|]. split; [exact LL|].
      rewrite PC. cbn [world0 now log].
      split; [exact RT|]. split; [right; split; [reflexivity|split; [reflexivity|exact RC]]|].
      rewrite LK in G3. rewrite PP in G3, G4. cbn [advance dep_now] in G4. rewrite RN in G4.
      split; [|split; [rewrite PP; reflexivity|split; [rewrite <- G4, G3; ring|split; [rewrite PP, stop_advance; exact SC|intros j wj Hj Ej; apply (NB j wj); [lia|exact Ej]]]]].
      clear - OJ ST CO LX LI PS FA' AF'.
      assert (OA := objective_accrued g m P x i obs (firstn K as_) ST CO LX LI PS FA' AF').
      assert (G : forall bs w acc a, objective g bs w (acc + a) = match objective g bs w a with None => None | Some r => Some (acc + r) end).
      { induction bs as [|b bs IH]; intros w acc a; [reflexivity|]. cbn [objective]. destruct (prepared g w); [|reflexivity].
        destruct (pass g b w); [|reflexivity]. rewrite Rplus_assoc. apply IH. }
      rewrite <- (Rplus_0_r (cost s)), G, OA in OJ. injection OJ as <-. reflexivity.
    - destruct (ready_reset g s x i L PL D1 D2) as (RD & E1 & E2). fold W0 in RD.
      assert (EF : forall bs, passes g bs (afresh g W0 L) = passes g bs (world0 x i obs)) by (intros bs; unfold afresh; rewrite E2, E1; reflexivity).
      destruct (twins g m P W0 L (firstn K as_) ST RD PS TP FA' AA') as (_ & OA & TW).
      destruct (TW NE) as (W & wf & F1 & F2 & TT). rewrite EF, EW in F2. injection F2 as <-.
      rewrite PP in F1. injection F1 as <-. rewrite LK in TT.
      assert (ST' := stop_twin g m K L (now W0) _ w stol goal ltac:(lia) S2 TT). rewrite stop_advance, SC in ST'.
      pose proof TT as (c0' & l' & Lw & p' & P' & A1 & A2 & A3 & A4 & A5 & A6 & A7 & A8 & A9 & A10 & A11 & A12 & A13 & A14 & A15 & A16 & A17 & A18 & _).
      rewrite M2 in A1. injection A1 as <- <-. rewrite advance_log in A2.
      exists L, Lw. split; [exact A2|]. split; [exact A4|].
      split; [apply (records_later g _ p v l Lw RT); [lia|rewrite LL; exact A6]|].
      split; [left; exact D1|]. split; [rewrite OA in OJ; injection OJ as <-; reflexivity|].
      split; [exact A12|].
      cbn [advance dep_now] in A18. rewrite RN in A18.
      split; [rewrite <- A18, A16, A15; change (now W0) with (now (world_of s)); ring|]. split; [symmetry; exact ST'|].
      intros j wj Hj Ej.
      assert (SPj : as_ = firstn j as_ ++ skipn j as_) by (symmetry; apply firstn_skipn).
      assert (FAj : Forall (proper_answer g) (firstn j as_)) by (rewrite SPj in FA; apply Forall_app in FA; apply FA).
      assert (AAj : all_answers P g (firstn j as_) W0) by (rewrite SPj in AA; apply all_prefix in AA; exact AA).
      assert (LKj : length (firstn j as_) = j) by (rewrite firstn_length; lia).
      destruct (twins g m P W0 L (firstn j as_) ST RD PS TP FAj AAj) as (_ & _ & TWj).
      destruct TWj as (Wj & wfj & G1 & G2 & TTj); [intros C; rewrite C in LKj; cbn in LKj; lia|].
      rewrite EF, Ej in G2. injection G2 as <-. rewrite LKj in TTj.
      rewrite <- (stop_twin g m j L _ Wj wj stol goal ltac:(lia) S2 TTj). apply (NB j Wj); [lia|exact G1]. }
  destruct X as (l0 & Lw & X1 & X2 & X3 & X4 & X5 & X6 & X7 & X8 & X9).
  exists k, p, v. fold K. split; [|split; [|split; [|split; [|split]]]].
  - split; [exact KL|]. split; [exact MV|]. exists l0, Lw. cbn [world_of stopped log]. repeat split; try assumption; apply X3; assumption.
  - assert (SR : forall j wj, (1 <= j <= K)%nat -> passes g (firstn j as_) (world0 x i obs) = Some wj ->
      stop_criterium stol goal wj = arrived stol (vsub (map (fun i => p i (at_update g j)) (seq 0 (dim g))) goal) (map (fun i => v i (at_update g j)) (seq 0 (dim g)))).
    { intros j wj Hj Ej. apply (stop_recorded g m P x i obs (firstn K as_) p v stol goal j wj ST CO LX LI PS FA' AF' MV); [lia|].
      rewrite firstn_firstn, Nat.min_l by lia. exact Ej. }
    cbv zeta. split.
    + apply Vehicle_Proofs2.arrived_ok; [exact T1|]. rewrite <- (SR K w ltac:(lia) EW). exact X8.
    + intros n Hn C. apply Vehicle_Proofs2.arrived_ok in C; [|exact T1].
      assert (PN : exists wn, passes g (firstn n as_) (world0 x i obs) = Some wn).
      { assert (Y : firstn K as_ = firstn n as_ ++ skipn n (firstn K as_)).
        { rewrite <- (firstn_skipn n (firstn K as_)) at 1. rewrite firstn_firstn, Nat.min_l by lia. reflexivity. }
        rewrite Y, passes_app in EW. destruct (passes g (firstn n as_) (world0 x i obs)) as [wn|]; [exists wn; reflexivity|discriminate]. }
      destruct PN as (wn & En). rewrite <- (SR n wn ltac:(lia) En), (X9 n wn Hn En) in C. discriminate.
  - cbn [world_of stopped obstacles]. rewrite X6, OW, LK. reflexivity.
  - reflexivity.
  - exact X5.
  - cbn [world_of]. rewrite (stopped_now g m W' _ ST X1).
    + rewrite X7. reflexivity.
    + rewrite (nth_last_app l0 Lw (K * m)) by (try exact X2; nia).
      destruct (X3 (K * m - 1)%nat) as (Y & _); [rewrite X2; nia|]. rewrite Y, X7.
      replace (S (K * m - 1)) with (K * m)%nat by nia. rewrite S3, Nat2Z.inj_mul, inject_Z_mult. ring.
Qed.
