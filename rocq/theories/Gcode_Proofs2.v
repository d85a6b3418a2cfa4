(* Proofs about room numbers, the scheduler's window and reading program files. *)
From Coq Require Import String Ascii List QArith Bool Arith Lia.
From Verif Require Import Gcode_Model Gcode_Spec Gcode_Proofs.
Import ListNotations.
Open Scope nat_scope.

(* ---------- numbering ---------- *)

Lemma room_numbers_consecutive : forall vt ps n,
  Forall (fun p => match p with Line s => s = true -> vt = true | Arc h => vt = false \/ h = 1 end) ps ->
  room_numbers vt ps n = seq n (length (room_numbers vt ps n)).
Proof.
  intros vt ps n H. revert n. induction H as [|p ps P H IH]; intros n; simpl; [reflexivity|].
  rewrite app_length, seq_app. rewrite <- IH. f_equal.
  destruct p as [[|]|h]; simpl; try reflexivity.
  - f_equal. rewrite Nat.add_1_r. f_equal. f_equal. lia.
  - destruct P as [-> | ->].
    + rewrite seq_length. reflexivity.
    + destruct vt; simpl; [|reflexivity]. f_equal. rewrite Nat.add_1_r. f_equal. f_equal. lia.
Qed.

(* ---------- slices ---------- *)

Lemma slice_cons : forall rooms a m r, nth_error rooms a = Some r ->
  slice rooms a (a + S m) = r :: slice rooms (S a) (S a + m).
Proof.
  intros rooms a m r H. unfold slice.
  replace (a + S m - a) with (S m) by lia. replace (S a + m - S a) with m by lia.
  assert (E : skipn a rooms = r :: skipn (S a) rooms).
  { revert a H. induction rooms as [|x rooms IH]; intros [|a] H; try discriminate.
    - inversion H; reflexivity.
    - simpl in H. simpl. rewrite (IH _ H). reflexivity. }
  rewrite E. reflexivity.
Qed.
Lemma slice_snoc : forall rooms a m r, nth_error rooms (a + m) = Some r ->
  slice rooms a (a + S m) = slice rooms a (a + m) ++ [r].
Proof.
  intros rooms a m. revert rooms a. induction m as [|m IH]; intros rooms a r H.
  - rewrite Nat.add_0_r in *. rewrite (slice_cons rooms a 0 r H). unfold slice.
    replace (S a + 0 - S a) with 0 by lia. rewrite Nat.sub_diag. reflexivity.
  - assert (X : exists x, nth_error rooms a = Some x).
    { destruct (nth_error rooms a) eqn:E; [eauto|]. apply nth_error_None in E.
      assert (a + S m < length rooms) by (apply nth_error_Some; congruence). lia. }
    destruct X as (x & X). rewrite (slice_cons rooms a (S m) x X), (slice_cons rooms a m x X).
    simpl. f_equal. apply IH. rewrite Nat.add_succ_comm. exact H.
Qed.
Lemma slice_length : forall rooms a m, a + m <= length rooms -> length (slice rooms a (a + m)) = m.
Proof.
  intros rooms a m H. unfold slice. rewrite firstn_length, skipn_length. lia.
Qed.
Lemma slice_nth : forall rooms a m i, i < m -> nth_error (slice rooms a (a + m)) i = nth_error rooms (a + i).
Proof.
  intros rooms a m i H. unfold slice. replace (a + m - a) with m by lia.
  revert rooms a m H. induction i as [|i IH]; intros rooms a m H.
  - rewrite Nat.add_0_r. destruct m as [|m]; [lia|]. clear H. revert a.
    induction rooms as [|x rooms IH]; intros [|a]; try reflexivity. simpl. apply IH.
  - destruct m as [|m]; [lia|]. revert a. 
    assert (G : forall a, nth_error (firstn (S m) (skipn a rooms)) (S i) = nth_error (firstn m (skipn (S a) rooms)) i).
    { induction rooms as [|x rooms IHr]; intros [|a].
      - rewrite !skipn_nil, !firstn_nil. destruct i; reflexivity.
      - rewrite !skipn_nil, !firstn_nil. destruct i; reflexivity.
      - reflexivity.
      - change (skipn (S (S a)) (x :: rooms)) with (skipn (S a) rooms). apply IHr. }
    intros a. rewrite G, IH by lia. f_equal; lia.
Qed.
Lemma last_some : forall (l : list room) r, last (map Some (l ++ [r])) None = Some r.
Proof. intros l r. rewrite map_app. simpl. apply last_last. Qed.
Lemma nth_some : forall (rooms : list room) i, i < length rooms -> exists r, nth_error rooms i = Some r.
Proof.
  intros rooms i H. destruct (nth_error rooms i) eqn:E; [eauto|]. apply nth_error_None in E; lia.
Qed.
Lemma last_room : forall (rooms : list room) i r, nth_error rooms i = Some r -> S i = length rooms ->
  last (map Some rooms) None = Some r.
Proof.
  intros rooms i r H L. destruct (nth_error_split _ _ H) as (l1 & l2 & E & LL). subst.
  rewrite app_length in L. simpl in L. destruct l2; [|simpl in L; lia]. apply last_some.
Qed.

(* ---------- the window ---------- *)

Section Window.
Variables (rooms : list room) (N : nat) (goal : pos).
Hypothesis NUM : numbered rooms.
Hypothesis N1 : 1 <= N.
Hypothesis NL : N <= length rooms.
Hypothesis GOAL : forall l, last (map Some rooms) None = Some l -> peq (rend l) goal.

Definition next_ok (st : sched) : Prop :=
  if N =? 1 then
    if S (n_cur st) <? length rooms
    then exists r, nth_error rooms (S (n_cur st)) = Some r /\ next_seg st = Some (Some r)
    else True
  else next_seg st = None.
Definition inv (st : sched) : Prop :=
  n_cur st < length rooms /\ n_seg st = Nat.min N (length rooms - n_cur st) /\
  segs st = slice rooms (n_cur st) (n_cur st + n_seg st) /\ next_ok st.

Lemma reinit_inv : exists st, reinitialize rooms N = Some st /\ inv st /\ n_cur st = 0.
Proof.
  unfold reinitialize. pose proof (slice_length rooms 0 N) as SL. simpl in SL. rewrite SL by lia.
  rewrite Nat.ltb_irrefl. eexists; split; [reflexivity|]. split; [|reflexivity].
  unfold inv, next_ok; cbn [n_cur n_seg segs next_seg]. split; [lia|]. split; [lia|]. split; [reflexivity|].
  destruct (N =? 1) eqn:E; [|reflexivity]. apply Nat.eqb_eq in E.
  destruct (1 <? length rooms) eqn:L; [|trivial]. apply Nat.ltb_lt in L.
  destruct (nth_some rooms 1 L) as (r & R). rewrite R. simpl. exists r; auto.
Qed.

Lemma inv_head : forall st, inv st -> exists s0 more, segs st = s0 :: more /\
  nth_error rooms (n_cur st) = Some s0 /\
  more = slice rooms (S (n_cur st)) (S (n_cur st) + (n_seg st - 1)).
Proof.
  intros st (C & S & G & _). destruct (nth_some rooms _ C) as (r & R).
  destruct (n_seg st) as [|m] eqn:M; [lia|]. rewrite (slice_cons _ _ m r R) in G.
  exists r, (slice rooms (Datatypes.S (n_cur st)) (Datatypes.S (n_cur st) + m)). rewrite G.
  replace (Datatypes.S m - 1) with m by lia. auto.
Qed.

Lemma check_total : forall inside st, inv st ->
  exists v, check_segments rooms goal inside st = Some v /\
    (v = false -> S (n_cur st) < length rooms /\
       exists r, nth_error rooms (S (n_cur st)) = Some r /\ inside r = true) /\
    (S (n_cur st) = length rooms -> v = true).
Proof.
  intros inside st I. destruct (inv_head st I) as (s0 & more & G & R & M).
  destruct I as (C & S & _ & NX). unfold check_segments. rewrite G.
  destruct (is_last rooms goal s0) eqn:L.
  { exists true. split; [reflexivity|]. split; [discriminate|reflexivity]. }
  assert (LT : Datatypes.S (n_cur st) < length rooms).
  { destruct (Nat.eq_dec (Datatypes.S (n_cur st)) (length rooms)) as [E|]; [|lia].
    exfalso. pose proof (last_room _ _ _ R E) as LR. unfold is_last in L. rewrite LR in L.
    assert (P1 : same_pos (rend s0) goal = true) by (apply same_pos_peq, GOAL, LR).
    assert (P2 : same_pos (rstart s0) (rstart s0) = true) by (apply same_pos_peq, peq_refl).
    rewrite P1, P2 in L. discriminate. }
  destruct (nth_some rooms _ LT) as (r & R1).
  unfold next_ok in NX. destruct (N =? 1) eqn:E1.
  - apply Nat.eqb_eq in E1. assert (LT' : (Datatypes.S (n_cur st) <? length rooms) = true) by (apply Nat.ltb_lt; exact LT).
    rewrite LT' in NX. destruct NX as (x & X1 & X2). rewrite X2.
    assert (S1 : (n_seg st =? 1) = true) by (apply Nat.eqb_eq; lia). rewrite S1.
    eexists; split; [reflexivity|]. split; [|intros; lia]. intros V. split; [exact LT|].
    exists x; split; [exact X1|]. destruct (inside x); [reflexivity|discriminate].
  - apply Nat.eqb_neq in E1. rewrite NX.
    destruct (n_seg st - 1) as [|m] eqn:SM; [lia|]. rewrite (slice_cons _ _ m r R1) in M. rewrite M.
    eexists; split; [reflexivity|]. split; [|intros; lia]. intros V. split; [exact LT|].
    exists r; split; [exact R1|]. destruct (inside r); [reflexivity|discriminate].
Qed.

Lemma update_inv : forall st, inv st -> S (n_cur st) < length rooms ->
  exists st', update_segments rooms (Sched (S (n_cur st)) (n_seg st) (segs st) (next_seg st)) = Some st' /\
    inv st' /\ n_cur st' = S (n_cur st).
Proof.
  intros st I LT. destruct (inv_head st I) as (s0 & more & G & R & M).
  destruct I as (C & SS & GS & NX). unfold update_segments. cbn [segs n_cur n_seg next_seg].
  destruct (n_seg st) as [|m] eqn:EM; [lia|].
  assert (LAST : exists l, nth_error rooms (n_cur st + m) = Some l) by (apply nth_some; lia).
  destruct LAST as (l & LL). pose proof (slice_snoc rooms (n_cur st) m l LL) as SN.
  rewrite GS, SN, last_some. rewrite (NUM _ _ LL).
  destruct (n_cur st + m <? length rooms - 1) eqn:LT2.
  - apply Nat.ltb_lt in LT2.
    assert (NR : exists r, nth_error rooms (n_cur st + Datatypes.S m) = Some r) by (apply nth_some; lia).
    destruct NR as (r & NR).
    replace (Datatypes.S (n_cur st) + (Datatypes.S m - 1)) with (n_cur st + Datatypes.S m) by lia.
    rewrite NR. rewrite (NUM _ _ NR).
    assert (TL : tl ((slice rooms (n_cur st) (n_cur st + m) ++ [l]) ++ [r]) =
                 slice rooms (Datatypes.S (n_cur st)) (Datatypes.S (n_cur st) + Datatypes.S m)).
    { rewrite <- SN. rewrite (slice_cons _ _ m s0 R). cbn [tl app].
      rewrite <- (slice_snoc rooms (Datatypes.S (n_cur st)) m r); [reflexivity|].
      rewrite <- NR. f_equal; lia. }
    rewrite TL.
    destruct (N =? 1) eqn:E1.
    + apply Nat.eqb_eq in E1. assert (m = 0) by lia. subst m. cbn [Nat.eqb].
      destruct (n_cur st + 1 <? length rooms - 1) eqn:L3.
      * apply Nat.ltb_lt in L3. destruct (nth_some rooms (Datatypes.S (n_cur st) + 1)) as (x & X); [lia|]. rewrite X.
        eexists; split; [reflexivity|]. split; [|reflexivity].
        unfold inv, next_ok; cbn [n_cur n_seg segs next_seg]. split; [lia|]. split; [lia|]. split; [reflexivity|].
        rewrite (proj2 (Nat.eqb_eq N 1) E1).
        destruct (Datatypes.S (Datatypes.S (n_cur st)) <? length rooms); [|trivial]. exists x; split; [|reflexivity].
        rewrite <- X. f_equal; lia.
      * apply Nat.ltb_ge in L3. eexists; split; [reflexivity|]. split; [|reflexivity].
        unfold inv, next_ok; cbn [n_cur n_seg segs next_seg]. split; [lia|]. split; [lia|]. split; [reflexivity|].
        rewrite (proj2 (Nat.eqb_eq N 1) E1).
        assert (F : (Datatypes.S (Datatypes.S (n_cur st)) <? length rooms) = false) by (apply Nat.ltb_ge; lia).
        rewrite F; trivial.
    + assert (M0 : (Datatypes.S m =? 1) = false).
      { apply Nat.eqb_neq in E1. apply Nat.eqb_neq. lia. }
      rewrite M0. eexists; split; [reflexivity|]. split; [|reflexivity].
      unfold inv, next_ok in *; cbn [n_cur n_seg segs next_seg]. rewrite E1 in *.
      split; [lia|]. split; [lia|]. split; [reflexivity|exact NX].
  - apply Nat.ltb_ge in LT2. rewrite <- SN, (slice_cons _ _ m s0 R). cbn [tl app].
    eexists; split; [reflexivity|]. split; [|reflexivity].
    unfold inv, next_ok in *; cbn [n_cur n_seg segs next_seg] in *. split; [lia|]. split; [lia|].
    split; [f_equal; lia|].
    destruct (N =? 1) eqn:E1; [|exact NX]. apply Nat.eqb_eq in E1. lia.
Qed.

Lemma step_inv : forall inside st, inv st ->
  exists st', solve_step rooms goal inside st = Some st' /\ inv st' /\
    (n_cur st' = n_cur st \/
     n_cur st' = S (n_cur st) /\ exists r, nth_error rooms (n_cur st') = Some r /\ inside r = true).
Proof.
  intros inside st I. destruct (check_total inside st I) as (v & CH & VF & _). unfold solve_step. rewrite CH.
  destruct v.
  - exists st. auto.
  - destruct (VF eq_refl) as (LT & r & R & IR). destruct (update_inv st I LT) as (st' & U & I' & N').
    exists st'. split; [exact U|]. split; [exact I'|]. right. rewrite N'. split; [reflexivity|]. exists r; auto.
Qed.

Lemma steps_inv : forall ins st, inv st ->
  exists st', solve_steps rooms goal ins st = Some st' /\ inv st' /\
    n_cur st <= n_cur st' <= n_cur st + length ins.
Proof.
  induction ins as [|i ins IH]; intros st I; simpl.
  - exists st. repeat split; try exact I; try apply I; lia.
  - destruct (step_inv i st I) as (s1 & E1 & I1 & P). rewrite E1.
    destruct (IH s1 I1) as (s2 & E2 & I2 & B). exists s2. split; [exact E2|]. split; [exact I2|].
    destruct P as [P | (P & _)]; lia.
Qed.

Lemma window_main : forall ins, exists st0 st,
  reinitialize rooms N = Some st0 /\ solve_steps rooms goal ins st0 = Some st /\
  n_cur st < length rooms /\ n_seg st = Nat.min N (length rooms - n_cur st) /\
  segs st = slice rooms (n_cur st) (n_cur st + n_seg st) /\ local_rooms rooms st = segs st.
Proof.
  intros ins. destruct reinit_inv as (st0 & R & I & _). destruct (steps_inv ins st0 I) as (st & E & I' & _).
  exists st0, st. split; [exact R|]. split; [exact E|]. destruct I' as (A & B & C & _).
  repeat (split; [assumption|]). unfold local_rooms. symmetry; exact C.
Qed.

(* with the tool always in the overlap and no earlier room passing for the last
   one, every step advances until the last room *)
Lemma window_progress : forall m,
  (forall i r, nth_error rooms i = Some r -> S i < length rooms -> is_last rooms goal r = false) ->
  exists st0 st, reinitialize rooms N = Some st0 /\
    solve_steps rooms goal (repeat (fun _ => true) m) st0 = Some st /\
    n_cur st = Nat.min m (length rooms - 1).
Proof.
  intros m NL1. destruct reinit_inv as (st0 & R & I & Z).
  assert (G : forall m st, inv st -> exists st', solve_steps rooms goal (repeat (fun _ => true) m) st = Some st' /\
             n_cur st' = Nat.min (n_cur st + m) (length rooms - 1)).
  { induction m0 as [|m0 IH]; intros st J; simpl.
    - exists st. split; [reflexivity|]. destruct J as (J & _). lia.
    - destruct (step_inv (fun _ => true) st J) as (s1 & E1 & I1 & P). rewrite E1.
      destruct (IH s1 I1) as (s2 & E2 & B). exists s2. split; [exact E2|]. rewrite B.
      destruct P as [P | (P & _)]; [|lia]. rewrite P.
      destruct (Nat.eq_dec (S (n_cur st)) (length rooms)) as [E|NE]; [lia|]. exfalso.
      destruct (inv_head st J) as (s0 & more & GS & RS & M).
      assert (LT : S (n_cur st) < length rooms) by (destruct J as (J & _); lia).
      destruct (update_inv st J LT) as (st' & U & _ & N').
      assert (CH : check_segments rooms goal (fun _ => true) st = Some false).
      { destruct (check_total (fun _ => true) st J) as (v & CH & _ & _). rewrite CH.
        unfold check_segments in CH. rewrite GS in CH. rewrite (NL1 _ _ RS LT) in CH.
        destruct (next_seg st) as [nx|].
        - destruct (n_seg st =? 1); [destruct nx; inversion CH; reflexivity|destruct more; inversion CH; reflexivity].
        - destruct more; inversion CH; reflexivity. }
      unfold solve_step in E1. rewrite CH, U in E1. inversion E1; subst. lia. }
  destruct (G m st0 I) as (st & E & B). exists st0, st. split; [exact R|]. split; [exact E|]. rewrite B, Z. reflexivity.
Qed.
End Window.

(* asking for more segments than there are rooms fails *)
Lemma reinit_too_many : forall rooms n, length rooms < n -> reinitialize rooms n = None.
Proof.
  intros rooms n H. unfold reinitialize, slice. rewrite firstn_length, skipn_length.
  assert (E : (Nat.min (n - 0) (length rooms - 0) <? n) = true) by (apply Nat.ltb_lt; lia). rewrite E. reflexivity.
Qed.

(* ---------- reading ---------- *)

Lemma read_main_blank : forall lines, In EmptyString lines -> read_main lines = None.
Proof.
  induction lines as [|l lines IH]; intros H; [destruct H|]. destruct H as [-> | H].
  - reflexivity.
  - simpl. rewrite (IH H). destruct (classify l); reflexivity.
Qed.
Lemma read_blank : forall op lines, In EmptyString lines -> read op lines = None.
Proof. intros op lines H. unfold read. rewrite read_main_blank by exact H. reflexivity. Qed.

Lemma read_main_plain : forall lines,
  Forall (fun l => exists c, classify l = Some c /\ forall fs, c <> Sub fs) lines ->
  read_main lines = Some (filter (fun l => match classify l with Some Keep => true | _ => false end) lines, []).
Proof.
  intros lines H; induction H as [|l lines (c & C & NS) H IH]; [reflexivity|].
  simpl. rewrite IH, C. destruct c; [reflexivity|reflexivity|]. exfalso. exact (NS files eq_refl).
Qed.
Lemma read_plain : forall op lines,
  Forall (fun l => exists c, classify l = Some c /\ forall fs, c <> Sub fs) lines ->
  read op lines = Some (filter (fun l => match classify l with Some Keep => true | _ => false end) lines).
Proof.
  intros op lines H. unfold read. rewrite (read_main_plain lines H). simpl. rewrite app_nil_r. reflexivity.
Qed.

(* ---------- monotone progress ---------- *)

Lemma solve_steps_app : forall rooms goal a b st,
  solve_steps rooms goal (a ++ b) st =
  match solve_steps rooms goal a st with Some st' => solve_steps rooms goal b st' | None => None end.
Proof.
  intros rooms goal a. induction a as [|i a IH]; intros b st; [reflexivity|].
  cbn [solve_steps app]. destruct (solve_step rooms goal i st); [apply IH|reflexivity].
Qed.
Lemma window_monotone : forall rooms N goal,
  numbered rooms -> 1 <= N -> N <= length rooms ->
  (forall l, last (map Some rooms) None = Some l -> peq (rend l) goal) ->
  forall ins i, exists st0 st st', reinitialize rooms N = Some st0 /\
    solve_steps rooms goal ins st0 = Some st /\ solve_steps rooms goal (ins ++ [i]) st0 = Some st' /\
    (n_cur st' = n_cur st \/
     n_cur st' = S (n_cur st) /\ exists r, nth_error rooms (n_cur st') = Some r /\ i r = true).
Proof.
  intros rooms N goal NUM N1 NL GOAL ins i.
  destruct (reinit_inv rooms N N1 NL) as (st0 & R & I0 & _).
  destruct (steps_inv rooms N goal NUM N1 NL GOAL ins st0 I0) as (st & S & I & _).
  destruct (step_inv rooms N goal NUM N1 NL GOAL i st I) as (st' & S' & _ & P).
  exists st0, st, st'. do 2 (split; [assumption|]). split; [|exact P].
  rewrite solve_steps_app, S. cbn [solve_steps]. rewrite S'. reflexivity.
Qed.

(* ---------- number notations used in the examples ---------- *)

(* plain decimal digits *)
Definition digit (a : ascii) : option Q :=
  let n := nat_of_ascii a in if (48 <=? n) && (n <=? 57) then Some (Z.of_nat (n - 48) # 1) else None.
Fixpoint decimal_from (acc : Q) (s : string) : option Q :=
  match s with
  | EmptyString => Some acc
  | String a s' => match digit a with Some d => decimal_from (acc * 10 + d)%Q s' | None => None end
  end.
Definition decimal (s : string) : option Q := match s with EmptyString => None | _ => decimal_from 0 s end.

(* a tally notation in which every rational number can be written *)
Fixpoint tally (a : ascii) (n : nat) : string := match n with 0 => EmptyString | S n' => String a (tally a n') end.
Fixpoint count (a : ascii) (s : string) : nat :=
  match s with EmptyString => 0 | String b s' => (if Ascii.eqb a b then 1 else 0) + count a s' end.
Definition tally_str (q : Q) : string :=
  (tally "p" (Z.to_nat (Qnum q)) ++ tally "m" (Z.to_nat (- Qnum q)) ++ tally "d" (Pos.to_nat (Qden q)))%string.
Definition tally_num (s : string) : option Q :=
  Some (Z.of_nat (count "p" s) - Z.of_nat (count "m" s) # Pos.of_nat (count "d" s)).

Lemma count_app : forall a s t, count a (s ++ t)%string = count a s + count a t.
Proof. intros a s t. induction s as [|b s IH]; [reflexivity|]. cbn [append count]. rewrite IH. lia. Qed.
Lemma count_tally : forall a b n, count a (tally b n) = if Ascii.eqb a b then n else 0.
Proof.
  intros a b n. induction n as [|n IH]; cbn [tally count]; [destruct (Ascii.eqb a b); reflexivity|].
  rewrite IH. destruct (Ascii.eqb a b); lia.
Qed.
Lemma tally_faithful : faithful tally_num tally_str.
Proof.
  split.
  - intros q. eexists. split; [reflexivity|]. unfold tally_str. rewrite !count_app, !count_tally. cbn [Ascii.eqb Bool.eqb].
    unfold Qeq; cbn [Qnum Qden]. rewrite !Nat.add_0_r, !Nat.add_0_l. simpl Ascii.eqb. cbn iota.
    rewrite Pos2Nat.id. f_equal. lia.
  - intros q a IN H. unfold tally_str in H.
    assert (G : forall s b, In b (list_ascii_of_string s) -> count b s <> 0).
    { induction s as [|c s IH]; intros b B; [destruct B|]. cbn [list_ascii_of_string] in B. cbn [count]. destruct B as [-> | B].
      - rewrite Ascii.eqb_refl. lia.
      - specialize (IH b B). lia. }
    apply (G _ _ H). rewrite !count_app, !count_tally.
    destruct IN as [<-|[<-|[<-|[<-|[<-|[<-|[<-|[]]]]]]]]; reflexivity.
Qed.
