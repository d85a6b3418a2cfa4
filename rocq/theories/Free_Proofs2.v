(** Any number of updates with free end time: what the log contains. *)
From Coq Require Import Reals QArith Qreals ZArith Lra Lia List Arith Bool.
From Coq Require Lqa.
From Verif Require Import Spline_Model Spline_Spec Splop_Spec Vehicle_Model Vehicle_Spec Lift_Model Lift_Spec
  Loop_Model Loop_Spec Loop_Proofs Loop_Proofs2 Loop_Proofs3 Free_Model Free_Spec Free_Proofs.
From Verif Require Grid_Model Timing_Model Timing_Proofs Timing_Proofs2.
Import ListNotations.
Local Open Scope R_scope.

(** what the log contains after the answers fs: N + 1 samples *)
Definition flogs (g : settings) (m : nat) (fs : list fanswer) (N : nat) (l : list column) : Prop :=
  length l = (N + 1)%nat /\
  (forall n f, nth_error fs n = Some f -> (n * m + count g m f <= N)%nat) /\
  (forall j, (j < length l)%nat -> (c_time (nth j l no_column) == inject_Z (Z.of_nat j) * ts g)%Q /\
     length (c_state (nth j l no_column)) = dim g /\ length (c_input (nth j l no_column)) = dim g) /\
  (forall n f q, nth_error fs n = Some f -> (q <= count g m f)%nat ->
     c_input (nth (n * m + q) l no_column) = map (fun i => fcourse f 1 i (INR q * Q2R (ts g))) (seq 0 (dim g))) /\
  (forall n f, nth_error fs n = Some f ->
     c_state (nth (n * m) l no_column) = map (fun i => fcourse f 0 i 0) (seq 0 (dim g))) /\
  (if ideal_update g then
     forall n f q, nth_error fs n = Some f -> (q <= count g m f)%nat ->
       c_state (nth (n * m + q) l no_column) = map (fun i => fcourse f 0 i (INR q * Q2R (ts g))) (seq 0 (dim g))
   else forall j, (S j < length l)%nat ->
       c_state (nth (S j) l no_column) =
       trapezoid (Q2R (ts g)) (c_state (nth j l no_column)) (c_input (nth j l no_column)) (c_input (nth (S j) l no_column))).

(** an answer starts in the predicted state with the predicted velocity *)
Definition f_starts (g : settings) (w : world) (f : fanswer) : Prop :=
  forall i, (i < dim g)%nat -> fcourse f 0 i 0 = nth i (p_state w) 0 /\ fcourse f 1 i 0 = nth i (p_input w) 0.

Lemma f_passes_snoc : forall g fs f w, f_passes g (fs ++ [f]) w =
  match f_passes g fs w with None => None | Some w' => f_pass g f w' end.
Proof.
  intros g fs. induction fs as [|b fs IH]; intros f w.
  - cbn. destruct (f_pass g f w); reflexivity.
  - cbn [app f_passes]. destruct (f_pass g b w); [apply IH|reflexivity].
Qed.
Lemma found_snoc : forall P g fs f w, all_found P g (fs ++ [f]) w <->
  all_found P g fs w /\ (forall w', f_passes g fs w = Some w' -> forall w1, prepared g w' = Some w1 -> P w1 f).
Proof.
  intros P g fs. induction fs as [|b fs IH]; intros f w.
  - cbn. split.
    + intros [A _]. split; [exact Logic.I|]. intros w' E. injection E as <-. exact A.
    + intros [_ A]. split; [apply A; reflexivity|trivial].
  - cbn [app all_found f_passes]. split.
    + intros [A B]. split; [split; [exact A|]|].
      * intros w2 E. apply (proj1 (IH f w2) (B w2 E)).
      * intros w' E. destruct (f_pass g b w) as [w2|] eqn:Q; [|discriminate].
        apply (proj1 (IH f w2) (B w2 eq_refl)). exact E.
    + intros [[A B] C]. split; [exact A|]. intros w2 E. rewrite E in C. apply IH. split; [apply B, E|exact C].
Qed.

Lemma f_step_log : forall g m fs f w1 p l0, paced g m -> timely g f ->
  (now w1 == inject_Z (Z.of_nat (length fs)) * upd g)%Q ->
  let q0 := count g m f in
  (q0 < length p)%nat ->
  (forall j, (j <= q0)%nat -> f_planned g f (now w1) j (nth j p no_column)) ->
  flogs g m fs (length fs * m) l0 -> c_state (last l0 no_column) = p_state w1 -> c_input (last l0 no_column) = p_input w1 ->
  f_starts g w1 f ->
  let l := l0 ++ appended g q0 p (c_state (last l0 no_column)) in
  flogs g m (fs ++ [f]) (length fs * m + q0) l /\ (forall j, (j < length l0)%nat -> nth j l no_column = nth j l0 no_column) /\
  c_input (last l no_column) = c_input (nth q0 p no_column) /\
  c_state (last l no_column) =
    (if ideal_update g then c_state (nth q0 p no_column)
     else last (integrate (Q2R (ts g)) q0 (c_state (nth (length fs * m) l no_column)) (map c_input p)) []) /\
  (c_time (last l no_column) == now w1 + inject_Z (Z.of_nat q0) * ts g)%Q.
Proof.
  intros g m fs f w1 p l0 ST TI NW q0 PL PC (L1 & L0 & L2 & L3 & L4 & L5) LS LI SR l.
  pose proof ST as (S1 & S2 & S3). destruct (count_ok g m f ST TI) as ((Q1 & Q2) & _). fold q0 in Q1, Q2.
  set (k := length fs) in *. set (s0 := c_state (last l0 no_column)) in *.
  assert (OLD : forall j, (j < length l0)%nat -> nth j l no_column = nth j l0 no_column).
  { intros j J. unfold l. apply app_nth1. exact J. }
  assert (LL : length l = (k * m + q0 + 1)%nat).
  { unfold l. rewrite app_length, appended_length, L1. lia. }
  assert (NEW : forall q, (1 <= q <= q0)%nat -> nth (k * m + q) l no_column =
     mkC (c_time (nth q p no_column)) (next_state g q0 p s0 q) (c_input (nth q p no_column)) (c_dinput (nth q p no_column))).
  { intros q Q. unfold l. rewrite app_nth2 by lia. rewrite L1.
    replace (k * m + q - (k * m + 1))%nat with (q - 1)%nat by lia. apply appended_nth. exact Q. }
  assert (LAST0 : last l0 no_column = nth (k * m) l0 no_column).
  { rewrite Timing_Proofs.last_nth, L1. f_equal. lia. }
  assert (AT0 : nth (k * m) l no_column = last l0 no_column).
  { rewrite LAST0. apply OLD. lia. }
  assert (LASTL : last l no_column = nth (k * m + q0) l no_column).
  { rewrite Timing_Proofs.last_nth, LL. f_equal. lia. }
  assert (Z0 : INR 0 * Q2R (ts g) = 0) by (cbn; ring).
  assert (LEN0 : length s0 = dim g /\ length (c_input (last l0 no_column)) = dim g).
  { unfold s0. rewrite LAST0. apply (L2 (k * m)%nat). lia. }
  assert (S0 : s0 = map (fun i => fcourse f 0 i 0) (seq 0 (dim g))).
  { symmetry. apply map_seq_nth; [apply LEN0|]. intros i Hi. rewrite LS. apply (SR i Hi). }
  assert (I0 : c_input (last l0 no_column) = map (fun i => fcourse f 1 i 0) (seq 0 (dim g))).
  { symmetry. apply map_seq_nth; [apply LEN0|]. intros i Hi. rewrite LI. apply (SR i Hi). }
  assert (PIN : forall q, (q <= q0)%nat -> c_input (nth q p no_column) =
     map (fun i => fcourse f 1 i (INR q * Q2R (ts g))) (seq 0 (dim g))) by (intros q Q; apply (PC q Q)).
  assert (PST : forall q, (q <= q0)%nat -> c_state (nth q p no_column) =
     map (fun i => fcourse f 0 i (INR q * Q2R (ts g))) (seq 0 (dim g))) by (intros q Q; apply (PC q Q)).
  assert (MCI : forall q, nth q (map c_input p) [] = c_input (nth q p no_column)).
  { intros q. change (@nil R) with (c_input no_column). apply map_nth. }
  assert (INT : ideal_update g = false -> forall q, (S q <= q0)%nat ->
     next_state g q0 p s0 (S q) = trapezoid (Q2R (ts g)) (next_state g q0 p s0 q) (c_input (nth q p no_column)) (c_input (nth (S q) p no_column))).
  { intros F q Q. unfold next_state. rewrite F. rewrite integrate_step by (rewrite ?map_length; lia).
    rewrite !MCI. reflexivity. }
  assert (ST0 : ideal_update g = false -> next_state g q0 p s0 0 = s0).
  { intros F. unfold next_state. rewrite F. apply integrate_0. }
  assert (SLEN : forall q, (q <= q0)%nat -> length (next_state g q0 p s0 q) = dim g).
  { destruct (ideal_update g) eqn:F.
    - intros q Q. unfold next_state. rewrite F, PST by exact Q. rewrite map_length, seq_length. reflexivity.
    - induction q as [|q IH]; intros Q; [rewrite ST0 by reflexivity; apply LEN0|].
      rewrite INT by (auto; lia). apply trapezoid_length; [apply IH; lia| |]; rewrite PIN by lia; rewrite map_length, seq_length; reflexivity. }
  assert (COL : forall q, (q <= q0)%nat -> c_input (nth (k * m + q) l no_column) = c_input (nth q p no_column) /\
     (ideal_update g = false \/ (1 <= q)%nat -> c_state (nth (k * m + q) l no_column) = next_state g q0 p s0 q) /\
     (c_time (nth (k * m + q) l no_column) == inject_Z (Z.of_nat (k * m + q)) * ts g)%Q).
  { intros q Q. destruct (Nat.eq_dec q 0) as [E|E].
    - subst q. rewrite Nat.add_0_r, AT0. split; [|split].
      + rewrite PIN by lia. rewrite I0. apply map_ext. intros i. rewrite Z0. reflexivity.
      + intros [F|F]; [rewrite ST0 by exact F; reflexivity|lia].
      + rewrite LAST0. apply L2. lia.
    - rewrite NEW by lia. cbn [c_time c_state c_input]. split; [reflexivity|]. split; [reflexivity|].
      destruct (PC q Q) as (X & _). rewrite X, NW, S3, Nat2Z.inj_add, Nat2Z.inj_mul, inject_Z_plus, inject_Z_mult. ring. }
  assert (EV : forall j, (j < length l)%nat -> (j < length l0)%nat \/ exists q, (1 <= q <= q0)%nat /\ j = (k * m + q)%nat).
  { intros j J. rewrite LL in J. destruct (le_lt_dec (length l0) j) as [X|X]; [|left; exact X].
    right. exists (j - k * m)%nat. lia. }
  assert (OLDN : forall n b q, nth_error fs n = Some b -> (q <= count g m b)%nat -> (n * m + q < length l0)%nat).
  { intros n b q N Q. rewrite L1. pose proof (L0 n b N). lia. }
  split; [|split; [exact OLD|split; [|split]]].
  - unfold flogs. split; [exact LL|]. split; [|split; [|split; [|split]]].
    + intros n b N. apply error_snoc in N. destruct N as [[N1 N2]|[-> <-]]; [pose proof (L0 n b N2); lia|fold k q0; lia].
    + intros j J. destruct (EV j J) as [X|(q & Q & ->)].
      * rewrite OLD by exact X. apply L2. exact X.
      * destruct (COL q ltac:(lia)) as (C1 & C2 & C3). split; [exact C3|]. rewrite C1, C2 by (right; lia).
        split; [apply SLEN; lia|]. rewrite PIN by lia. rewrite map_length, seq_length. reflexivity.
    + intros n b q N Q. apply error_snoc in N. destruct N as [[N1 N2]|[-> <-]].
      * rewrite OLD by (apply (OLDN n b q N2 Q)). apply (L3 n b q N2 Q).
      * fold k. rewrite (proj1 (COL q Q)). apply PIN, Q.
    + intros n b N. apply error_snoc in N. destruct N as [[N1 N2]|[-> <-]].
      * rewrite OLD; [apply (L4 n b N2)|]. pose proof (OLDN n b 0%nat N2 ltac:(lia)). lia.
      * fold k. rewrite AT0. exact S0.
    + destruct (ideal_update g) eqn:F.
      * intros n b q N Q. apply error_snoc in N. destruct N as [[N1 N2]|[-> <-]].
        -- rewrite OLD by (apply (OLDN n b q N2 Q)). apply (L5 n b q N2 Q).
        -- fold k. destruct (Nat.eq_dec q 0) as [E|E].
           ++ subst q. rewrite Nat.add_0_r, AT0. fold s0. rewrite S0. apply map_ext. intros i. rewrite Z0. reflexivity.
           ++ destruct (COL q Q) as (_ & C2 & _). rewrite C2 by (right; lia). unfold next_state. rewrite F. apply PST, Q.
      * intros j J. destruct (EV (S j) J) as [X|(q & Q & E)].
        -- rewrite !OLD by lia. apply L5. exact X.
        -- assert (j = k * m + (q - 1))%nat by lia. rewrite E, H.
           destruct (COL q ltac:(lia)) as (C1 & C2 & _). destruct (COL (q - 1)%nat ltac:(lia)) as (D1 & D2 & _).
           rewrite C1, C2, D1, D2 by (left; reflexivity).
           pose proof (INT eq_refl (q - 1)%nat ltac:(lia)) as K. replace (S (q - 1)) with q in K by lia. exact K.
  - rewrite LASTL. apply COL. lia.
  - rewrite LASTL. destruct (COL q0 ltac:(lia)) as (_ & C2 & _). rewrite C2 by (right; lia). unfold next_state.
    destruct (ideal_update g); [reflexivity|]. rewrite AT0.
    assert (LI2 := Timing_Proofs.last_nth (integrate (Q2R (ts g)) q0 s0 (map c_input p)) []).
    rewrite integrate_length in LI2. unfold s0 in *. rewrite LI2. f_equal. lia.
  - rewrite LASTL. destruct (COL q0 ltac:(lia)) as (_ & _ & C3). rewrite C3, NW, S3, Nat2Z.inj_add, Nat2Z.inj_mul, inject_Z_plus, inject_Z_mult. ring.
Qed.

(** the world in which the next answer is found *)
Definition ready (g : settings) (m : nat) (fs : list fanswer) (s0 i0 : list R) (w1 : world) : Prop :=
  (now w1 == inject_Z (Z.of_nat (length fs)) * upd g)%Q /\ (start_time w1 == 0)%Q /\ iteration0 w1 = false /\
  (fs = [] /\ log w1 = None /\ plan w1 = None /\ p_state w1 = s0 /\ p_input w1 = i0 \/
   exists l pl, log w1 = Some l /\ plan w1 = Some pl /\ flogs g m fs (length fs * m) l /\ c_state (last l no_column) = p_state w1 /\
     c_input (last l no_column) = p_input w1 /\ c_state (nth 0 l no_column) = s0 /\ c_input (nth 0 l no_column) = i0).

Lemma one_update : forall g m fs s0 i0 w w1 f, paced g m -> timely g f -> proper g f -> length s0 = dim g -> length i0 = dim g ->
  prepared g w = Some w1 -> ready g m fs s0 i0 w1 -> f_starts g w1 f ->
  exists l p, f_update g f w = Some (mkW (now w1) (now w1) (iteration0 w1) (start_time w1) (Some l) (Some p)
        (p_state w1) (p_input w1) (map (simulate_obstacle g (f_time g f)) (obstacles w1))) /\
    flogs g m (fs ++ [f]) (length fs * m + count g m f) l /\ (count g m f < length p)%nat /\
    c_state (nth 0 l no_column) = s0 /\ c_input (nth 0 l no_column) = i0 /\
    c_input (last l no_column) = c_input (nth (count g m f) p no_column) /\
    c_state (last l no_column) =
      (if ideal_update g then c_state (nth (count g m f) p no_column)
       else last (integrate (Q2R (ts g)) (count g m f) (c_state (nth (length fs * m) l no_column)) (map c_input p)) []) /\
    (c_time (last l no_column) == now w1 + inject_Z (Z.of_nat (count g m f)) * ts g)%Q.
Proof.
  intros g m fs s0 i0 w w1 f ST TI PF LS LI PR (NW & SW & IT & LG) SR.
  destruct (f_update_shape g m f w w1 ST TI PF PR) as (p & PL & PLL & PC & UE).
  assert (L0 : flogs g m fs (length fs * m) (started w1 p) /\ c_state (last (started w1 p) no_column) = p_state w1 /\
       c_input (last (started w1 p) no_column) = p_input w1 /\
       c_state (nth 0 (started w1 p) no_column) = s0 /\ c_input (nth 0 (started w1 p) no_column) = i0).
  { unfold started. destruct LG as [(-> & -> & _ & <- & <-)|(l & pl & -> & _ & L & A & B & C & D)].
    - destruct p as [|c p]; [cbn in PL; lia|]. cbn [firstn last nth].
      destruct (PC 0%nat ltac:(lia)) as (P1 & P2 & P3 & _). cbn [nth] in P1, P2, P3.
      assert (Z0 : INR 0 * Q2R (ts g) = 0) by (cbn; ring).
      assert (CS : c_state c = p_state w1).
      { rewrite P2. apply map_seq_nth; [exact LS|]. intros i Hi. rewrite Z0. apply SR, Hi. }
      assert (CI : c_input c = p_input w1).
      { rewrite P3. apply map_seq_nth; [exact LI|]. intros i Hi. rewrite Z0. apply SR, Hi. }
      split; [|repeat split; assumption].
      split; [reflexivity|]. split; [intros [|n] b X; discriminate|].
      split; [|split; [intros [|n] b q X; discriminate|split; [intros [|n] b X; discriminate|]]].
      + intros j J. cbn in J. assert (j = 0)%nat by lia. subst j. cbn [nth]. rewrite CS, CI. split; [|split; assumption].
        rewrite P1, NW. cbn [length]. change (inject_Z (Z.of_nat 0)) with 0%Q. ring.
      + destruct (ideal_update g); [intros [|n] b q X; discriminate|]. intros j J. cbn in J. lia.
    - split; [exact L|]. repeat split; assumption. }
  destruct L0 as (L0 & LS0 & LI0 & FS & FI).
  destruct (f_step_log g m fs f w1 p (started w1 p) ST TI NW PL PC L0 LS0 LI0 SR) as (LN & OLD & LIN & LSN & LT).
  set (l := started w1 p ++ appended g (count g m f) p (c_state (last (started w1 p) no_column))) in *.
  assert (LZ : (0 < length (started w1 p))%nat) by (destruct L0 as (X & _); rewrite X; lia).
  exists l, p. split; [exact UE|]. split; [exact LN|]. split; [exact PL|]. rewrite !OLD by exact LZ.
  split; [exact FS|]. split; [exact FI|]. split; [exact LIN|]. split; [exact LSN|exact LT].
Qed.

Theorem free_log : forall g m (P : world -> fanswer -> Prop) s0 i0 obs fs, paced g m -> consistent g -> length s0 = dim g -> length i0 = dim g ->
  (forall w f, long g f -> P w f -> f_starts g w f) -> Forall (long g) fs -> Forall (proper g) fs ->
  all_found P g fs (world0 s0 i0 obs) ->
  exists w w1, f_passes g fs (world0 s0 i0 obs) = Some w /\ prepared g w = Some w1 /\ ready g m fs s0 i0 w1 /\
    obstacles w1 = map (obstacle_after g (length fs)) obs /\
    (forall n f, nth_error fs n = Some f -> exists w1, P w1 f /\ obstacles w1 = map (obstacle_after g n) obs).
Proof.
  intros g m P s0 i0 obs fs ST CO LS LI PS. pose proof ST as (S1 & S2 & S3).
  induction fs as [|f fs IH] using rev_ind; intros FL FA AA.
  - exists (world0 s0 i0 obs). eexists. split; [reflexivity|]. split; [apply prepared_first|]. split; [|split].
    + unfold ready. cbn [now start_time iteration0 log plan p_state p_input length].
      split; [change (inject_Z (Z.of_nat 0)) with 0%Q; ring|]. split; [reflexivity|]. split; [reflexivity|]. left. repeat split; reflexivity.
    + cbn. rewrite map_id. reflexivity.
    + intros [|n] a E; discriminate.
  - apply Forall_app in FA. destruct FA as [FA PA]. apply Forall_inv in PA.
    apply Forall_app in FL. destruct FL as [FL FLf]. apply Forall_inv in FLf.
    apply found_snoc in AA. destruct AA as [AA NA].
    destruct (IH FL FA AA) as (w & w1 & E & PR & RD & O & W). specialize (NA w E w1 PR).
    pose proof (PS w1 f FLf NA) as SR. pose proof (long_timely g m f ST FLf) as TI. pose proof (count_long g m f FLf) as CL.
    destruct (one_update g m fs s0 i0 w w1 f ST TI PA LS LI PR RD SR) as (l & p & UE & LN & PL & FS & FI & LIN & LSN & LT).
    rewrite CL in *. rewrite (long_time g f FLf) in UE. destruct RD as (NW & SW & IT & _).
    assert (LT' : (c_time (last l no_column) == now w1 + upd g)%Q) by (rewrite LT, S3; reflexivity).
    assert (PE : f_pass g f w = Some (mkW (now w1 + upd g) (now w1) (iteration0 w1) (start_time w1) (Some l) (Some p)
        (p_state w1) (p_input w1) (map (simulate_obstacle g (upd g)) (obstacles w1)))).
    { unfold f_pass. rewrite UE. unfold advance. cbn [log now dep_now iteration0 start_time plan p_state p_input obstacles].
      assert (RA : Timing_Model.run_arg (ts g) (upd g) false (c_time (last l no_column) - now w1) = None).
      { unfold Timing_Model.run_arg. unfold Grid_Model.Qltb.
        assert (X : Qle_bool (upd g - (c_time (last l no_column) - now w1)) (ts g) = true).
        { apply Qle_bool_iff. rewrite LT'. Lqa.lra. }
        rewrite X. reflexivity. }
      rewrite RA. reflexivity. }
    set (w2 := mkW (now w1 + upd g) (now w1) (iteration0 w1) (start_time w1) (Some l) (Some p)
        (p_state w1) (p_input w1) (map (simulate_obstacle g (upd g)) (obstacles w1))) in *.
    assert (NK : (now w2 == inject_Z (Z.of_nat (S (length fs))) * upd g)%Q).
    { cbn [now w2]. rewrite NW, Nat2Z.inj_succ, <- Z.add_1_r, inject_Z_plus. ring. }
    assert (PG : prepared g w2 = Some (mkW (now w2) (dep_now w2) false (start_time w2) (Some l) (Some p)
       (c_state (last l no_column)) (c_input (last l no_column)) (obstacles w2))).
    { rewrite prepared_fixed. pose proof (prepared_any (fixed g) m (S (length fs)) w2 l p (fixed_steady g m ST)) as PA2.
      change (ideal_prediction (fixed g)) with (ideal_prediction g) in PA2. change (ts (fixed g)) with (ts g) in PA2. rewrite PA2.
      - rewrite CO, LSN, LIN. replace (S (length fs) - 1)%nat with (length fs) by lia. reflexivity.
      - lia.
      - reflexivity.
      - reflexivity.
      - exact NK.
      - reflexivity.
      - exact IT.
      - exact SW.
      - exact PL.
      - destruct LN as (X & _). rewrite X, Nat.mul_succ_l. reflexivity.
      - exact LT'. }
    exists w2. eexists. split; [rewrite f_passes_snoc, E; exact PE|]. split; [exact PG|].
    rewrite app_length. cbn [length]. replace (length fs + 1)%nat with (S (length fs)) by lia.
    split; [|split].
    + unfold ready. cbn [now start_time iteration0 log plan p_state p_input dep_now obstacles].
      rewrite app_length. cbn [length]. replace (length fs + 1)%nat with (S (length fs)) by lia.
      split; [exact NK|]. split; [exact SW|]. split; [reflexivity|]. right. exists l, p.
      split; [reflexivity|]. split; [reflexivity|]. split; [rewrite Nat.mul_succ_l; exact LN|]. repeat split; assumption.
    + cbn [obstacles obstacle_after w2]. rewrite O, map_map. reflexivity.
    + intros n b N. apply error_snoc in N. destruct N as [[_ N]|[-> <-]]; [apply W, N|].
      exists w1. split; [exact NA|exact O].
Qed.

(** with a last update, which may be shorter *)
Theorem after_log : forall g m (P : world -> fanswer -> Prop) s0 i0 obs fs f, paced g m -> consistent g -> length s0 = dim g -> length i0 = dim g ->
  (forall w f, timely g f -> proper g f -> P w f -> f_starts g w f) -> Forall (long g) fs -> Forall (proper g) fs -> timely g f -> proper g f ->
  all_found P g (fs ++ [f]) (world0 s0 i0 obs) ->
  exists w l, after g fs f (world0 s0 i0 obs) = Some w /\ log w = Some l /\
    flogs g m (fs ++ [f]) (length fs * m + count g m f) l /\
    c_state (nth 0 l no_column) = s0 /\ c_input (nth 0 l no_column) = i0 /\
    (now w == inject_Z (Z.of_nat (length fs)) * upd g)%Q /\ (start_time w == 0)%Q /\
    (forall n f', nth_error (fs ++ [f]) n = Some f' -> exists w1, P w1 f' /\ obstacles w1 = map (obstacle_after g n) obs).
Proof.
  intros g m P s0 i0 obs fs f ST CO LS LI PS FL FA TI PF AA.
  apply found_snoc in AA. destruct AA as [AA NA].
  destruct (free_log g m (fun w f => P w f /\ proper g f) s0 i0 obs fs ST CO LS LI) as (w & w1 & E & PR & RD & O & W).
  { intros w f' L [Q1 Q2]. apply PS; [apply (long_timely g m); assumption|exact Q2|exact Q1]. }
  { exact FL. } { exact FA. }
  { clear -AA FA. revert AA. generalize (world0 s0 i0 obs). induction fs as [|b fs IH]; intros w0 AA; [exact Logic.I|].
    cbn [all_found] in *. destruct AA as [A B]. inversion FA as [|? ? F1 F2]; subst. split; [intros w1 H; split; [apply A, H|exact F1]|].
    intros w2 H. apply IH; [exact F2|apply B, H]. }
  specialize (NA w E w1 PR).
  destruct (one_update g m fs s0 i0 w w1 f ST TI PF LS LI PR RD (PS w1 f TI PF NA)) as (l & p & UE & LN & PL & FS & FI & LIN & LSN & LT).
  eexists. exists l. split; [unfold after; rewrite E; exact UE|]. cbn [log now start_time].
  split; [reflexivity|]. split; [exact LN|]. split; [exact FS|]. split; [exact FI|].
  destruct RD as (NW & SW & _). split; [exact NW|]. split; [exact SW|].
  intros n b N. apply error_snoc in N. destruct N as [[_ N]|[-> <-]].
  - destruct (W n b N) as (w3 & [X _] & Y). exists w3. split; assumption.
  - exists w1. split; [exact NA|exact O].
Qed.
