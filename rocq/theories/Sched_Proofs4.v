From Coq Require Import QArith Qabs List Bool Arith Lia Lqa.
From Verif Require Import Frame_Model Frame_Spec Frame_Proofs Frame_Proofs4 Frame_Proofs6
  Sched_Model Sched_Spec Sched_Proofs Sched_Proofs2 Sched_Proofs3.
Import ListNotations.
Open Scope Q_scope.

Lemma mem_iff x l : mem x l = true <-> In x l.
Proof.
  unfold mem. rewrite existsb_exists. split.
  - intros (y & I & E). apply Nat.eqb_eq in E. congruence.
  - intros I. exists x. split; [exact I|apply Nat.eqb_refl].
Qed.
Lemma same_set_iff a b : same_set a b = true <-> same_elements a b.
Proof.
  unfold same_set, same_elements. rewrite andb_true_iff, !forallb_forall. split.
  - intros [A B] x. split; intros H; apply mem_iff; auto.
  - intros H. split; intros x I; apply mem_iff, H, I.
Qed.

Lemma seen_iff s obs f t x : 0 < s_ts s -> 0 <= t -> followed obs ->
  In x (seen s obs f t) <-> passing (lims f) (s_ts s) t obs x.
Proof.
  intros HT Ht FO. unfold seen, passing. rewrite in_map_iff. split.
  - intros (o' & <- & I). apply (moving_listed _ _ _ _ _ HT Ht FO) in I.
    destruct I as (o & I & -> & V & c & k & TC & K & CT). exists o. split; [exact I|]. split; [reflexivity|].
    split; [exact V|]. exists c, k. auto.
  - intros (o & I & <- & V & c & k & TC & K & CT). exists (set_avoid o). split; [reflexivity|].
    apply (moving_listed _ _ _ _ _ HT Ht FO). exists o. repeat split; auto. exists c, k. auto.
Qed.

(* after the comparison every frame has the obstacles that it sees *)
Lemma compare_seen s obs fs : forall ts new fs' b, compare s obs fs ts new = Ok (fs', b) ->
  forall k f' t, nth_error fs' k = Some f' -> nth_error ts k = Some t -> same_elements (s_moving f') (seen s obs f' t).
Proof.
  induction fs as [|f fs IH]; intros ts new fs' b H k f' t E1 E2; cbn [compare] in H; cbv zeta in H.
  - injection H as <- <-. destruct k; discriminate.
  - destruct ts as [|t0 ts]; [discriminate|]. ib H r E. destruct r as [r b'].
    assert (fs' = (if negb (same_set (seen s obs f t0) (s_moving f)) then set_moving f (seen s obs f t0) else f) :: r)
      as -> by congruence.
    destruct k as [|k]; cbn [nth_error] in E1, E2; [|eapply IH; eauto].
    assert (t0 = t) as -> by congruence.
    assert (f' = (if negb (same_set (seen s obs f t) (s_moving f)) then set_moving f (seen s obs f t) else f))
      as -> by congruence.
    destruct (same_set (seen s obs f t) (s_moving f)) eqn:SS; cbn [negb].
    + apply same_set_iff in SS. intros x. symmetry. apply SS.
    + intros x. reflexivity.
Qed.

(* the answer is that of the last frame *)
Lemma compare_last s obs fs : forall f ts new fs' b, compare s obs (fs ++ [f]) ts new = Ok (fs', b) ->
  exists t f', nth_error ts (length fs) = Some t /\ hd_error (rev fs') = Some f' /\
    b = negb (same_set (seen s obs f t) (s_moving f)) /\ (b = false -> f' = f).
Proof.
  induction fs as [|g fs IH]; intros f ts new fs' b H; cbn in H.
  - destruct ts as [|t ts]; [discriminate|]. injection H as <- <-. exists t.
    eexists. repeat split. intros ->. reflexivity.
  - destruct ts as [|t0 ts]; [discriminate|]. ib H r E. destruct r as [r b']. injection H as <- <-.
    apply IH in E. destruct E as (t & f' & E1 & E2 & E3 & E4). exists t, f'. cbn. split; [exact E1|].
    split; [|auto]. destruct (rev r); [discriminate|]. exact E2.
Qed.

Lemma set_times_nth T m : forall ts k ts' j t, set_times ts k m T = Ok ts' -> (j < m)%nat ->
  nth_error ts' j = Some t -> t = T (k + j)%nat.
Proof.
  induction m as [|m IH]; intros ts k ts' j t H J E; [lia|]. cbn in H.
  destruct ts as [|t0 ts]; [discriminate|]. ib H r E0. injection H as <-.
  destruct j as [|j]; cbn in E; [injection E as <-; f_equal; lia|].
  rewrite (IH _ _ _ j t E0 ltac:(lia) E). f_equal. lia.
Qed.

(* ---- solve --------------------------------------------------------------- *)

Lemma solve_times s N obs T g fs ts b : inv s N g ->
  (if s_freeT s then set_times (g_times g) 0 (g_n g) T = Ok ts else ts = [w_horizon (s_world s)]) ->
  compare s obs (g_frames g) ts false = Ok (fs, b) ->
  length ts = g_n g /\ forall k t, nth_error ts k = Some t -> (k < g_n g)%nat /\ t = remaining s T k.
Proof.
  intros [L B LT RM NX FX] TS CM. unfold remaining. destruct (s_freeT s) eqn:FT.
  - pose proof (set_times_ok _ _ _ _ _ TS) as [A _]. split; [congruence|]. intros k t E.
    assert (k < length ts)%nat as K by (apply nth_error_Some; congruence).
    split; [lia|]. apply (set_times_nth _ _ _ _ _ _ _ TS) in E; [|lia]. exact E.
  - subst ts. specialize (FX eq_refl). split; [cbn; lia|]. intros [|k] t E; cbn in E; [|destruct k; discriminate].
    injection E as <-. split; [lia|reflexivity].
Qed.

Lemma last_split {A} (l : list A) : l <> [] -> exists l' x, l = l' ++ [x].
Proof. intros N. destruct (exists_last N) as (l' & x & ->). eauto. Qed.

(* frames stay: every frame knows the obstacles that move through it *)
Lemma recorded s N curr obs T g g' b : inv s N g -> 0 < s_ts s -> followed obs ->
  (forall k, 0 <= remaining s T k) ->
  solve s curr obs T g = Ok (g', b) -> g_cnt g' = g_cnt g ->
  forall k f x, nth_error (g_frames g') k = Some f ->
    (In x (s_moving f) <-> passing (lims f) (s_ts s) (remaining s T k) obs x).
Proof.
  intros I HT FO HR H CN k f x E. apply solve_cases in H.
  destruct H as [(C & fs & ts & TS & CM & D)|(C & -> & fs & n & next & fs' & ts & tg & rooms & M & F & ->)].
  2:{ cbn in CN. lia. }
  assert (g_frames g' = fs) as EF by (destruct b; [destruct D as (rooms & _ & ->)|subst g']; reflexivity).
  rewrite EF in E. pose proof (solve_times _ _ _ _ _ _ _ _ I TS CM) as [LT NT].
  pose proof (compare_ok _ _ _ _ _ _ _ CM) as (K & _ & _). apply kinws_len in K.
  assert (k < length fs)%nat as KL by (apply nth_error_Some; congruence).
  destruct I as [L B _ _ _ _].
  destruct (nth_error ts k) as [t|] eqn:ET; [|apply nth_error_None in ET; lia].
  pose proof (compare_seen _ _ _ _ _ _ _ CM _ _ _ E ET x) as S. rewrite S.
  apply NT in ET. destruct ET as [_ ->]. apply seen_iff; auto.
Qed.

(* frames stay: a new local problem is made when and only when the last frame
   has new obstacles *)
Lemma rebuild_iff s N curr obs T g g' b fs f : inv s N g -> 0 < s_ts s -> followed obs ->
  (forall k, 0 <= remaining s T k) ->
  solve s curr obs T g = Ok (g', b) -> g_cnt g' = g_cnt g -> g_frames g = fs ++ [f] ->
  (b = true <-> ~ (forall x, In x (s_moving f) <-> passing (lims f) (s_ts s) (remaining s T (length fs)) obs x)) /\
  (b = false -> g_rooms g' = g_rooms g /\ exists fs', g_frames g' = fs' ++ [f]).
Proof.
  intros I HT FO HR H CN EF. apply solve_cases in H.
  destruct H as [(C & fs0 & ts & TS & CM & D)|(C & -> & fs0 & n & next & fs' & ts & tg & rooms & M & F & ->)].
  2:{ cbn in CN. lia. }
  pose proof (solve_times _ _ _ _ _ _ _ _ I TS CM) as [LT NT].
  rewrite EF in CM. pose proof (compare_last _ _ _ _ _ _ _ _ CM) as (t & f' & ET & HF & EB & KEEP).
  apply NT in ET. destruct ET as [_ ->]. split.
  - rewrite EB. rewrite negb_true_iff. split.
    + intros SS X. enough (same_set (seen s obs f (remaining s T (length fs))) (s_moving f) = true) by congruence.
      apply same_set_iff. intros x. rewrite X. apply seen_iff; auto.
    + intros X. destruct (same_set _ _) eqn:SS; [|reflexivity]. exfalso. apply X.
      apply same_set_iff in SS. intros x. rewrite <- (SS x). apply seen_iff; auto.
  - intros ->. cbn in D. subst g'. cbn. split; [reflexivity|]. specialize (KEEP eq_refl). subst f'.
    destruct (last_split fs0) as (fs1 & y & ->).
    { intros ->. discriminate. }
    rewrite rev_app_distr in HF. injection HF as ->. eauto.
Qed.

(* a new local problem gets what the frames have *)
Lemma rebuilt_match s N curr obs T g g' : inv s N g -> solve s curr obs T g = Ok (g', true) -> obstacles_match g'.
Proof.
  intros I H. pose proof (solve_inv _ _ _ _ _ _ _ _ I H) as I'. apply solve_cases in H.
  assert (rm : forall fs, Forall2 (fun r f => same_elements (r_obs r) (map o_id (f_stationary (sf f)) ++ s_moving f))
            (map room_of fs) fs).
  { induction fs as [|f fs IH]; constructor; auto. intros x. reflexivity. }
  destruct H as [(C & fs & ts & TS & CM & D)|(C & _ & fs & n & next & fs' & ts & tg & rooms & M & F & ->)].
  - destruct D as (rooms & G & ->). apply generate_ok in G. destruct G as [_ ->].
    exists (map room_of (firstn (g_n g) fs)). split; [reflexivity|]. cbn [g_frames].
    destruct I' as [L _ _ _ _ _]. cbn in L. rewrite <- L, firstn_all. apply rm.
  - assert (n0 : n = 0%nat -> fs = []).
    { intros ->. destruct I' as [_ B _ _ _ _]. cbn in B. lia. }
    apply finish_ok in F; [|exact n0]. destruct F as (_ & _ & _ & _ & -> & _).
    exists (map room_of fs'). split; [reflexivity|]. apply rm.
Qed.
Lemma reinit_match s obs T g g' : fresh g -> reinitialize s obs T g = Ok g' -> obstacles_match g'.
Proof.
  intros [F1 F2] H. apply reinit_finish in H.
  destruct H as (fs & n & next & fs' & ts & tg & rooms & C & F & ->). rewrite F1, F2 in C.
  apply first_frames in C. destruct C as (fs0 & next0 & _ & _ & _ & _ & D & NX).
  apply finish_ok in F.
  2:{ intros ->. destruct D as [[X Y]|(X & Y & Z & _)]; [|lia]. destruct fs; [reflexivity|cbn in X; lia]. }
  destruct F as (N & L & L' & LT & -> & LM & K & _). exists (map room_of fs'). split; [reflexivity|]. cbn.
  clear. induction fs' as [|f fs IH]; constructor; auto. intros x. reflexivity.
Qed.

(* one frame: the local problem always has the obstacles of the frame *)
Lemma one_frame_step s N curr obs T g g' b : inv s N g -> g_n g = 1%nat -> obstacles_match g ->
  solve s curr obs T g = Ok (g', b) -> obstacles_match g'.
Proof.
  intros I N1 OM H. destruct b; [eapply rebuilt_match; eauto|].
  apply solve_cases in H.
  destruct H as [(C & fs & ts & TS & CM & D)|(C & [=] & _)]. cbn in D. subst g'.
  destruct I as [L B _ _ _ _]. rewrite N1 in L. destruct (g_frames g) as [|f [|? ?]] eqn:E; try discriminate.
  pose proof (compare_last _ _ [] _ _ _ _ _ CM) as (t & f' & ET & HF & EB & KEEP).
  specialize (KEEP eq_refl). subst f'. pose proof (compare_ok _ _ _ _ _ _ _ CM) as (K & _ & _). apply kinws_len in K.
  destruct fs as [|y [|? ?]]; try discriminate. cbn in HF. injection HF as ->.
  destruct OM as (rooms & R & M). exists rooms. split; [exact R|]. cbn. congruence.
Qed.

Lemma one_frame_match w o start ins s g : opt (o_nframes o) 1%nat = 1%nat ->
  execute w (Some o) start ins = Ok (s, g) -> obstacles_match g.
Proof.
  intros N1 H. pose proof (execute_inv _ _ _ _ _ _ H) as I. apply execute_cases in H.
  destruct H as (g0 & g1 & A & B & C).
  apply init_fresh in A. destruct A as (o' & [= <-] & _ & _ & _ & _ & F & N & _ & _ & FX).
  rewrite N1 in N. pose proof (reinit_match _ _ _ _ _ F B) as OM.
  apply reinit_inv in B; [|exact F|congruence]. destruct B as [I1 _]. rewrite N in I1. clear - I1 OM C.
  revert g1 I1 OM C. induction ins as [|i ins IH]; intros g1 I1 OM C; cbn in C; [injection C as <-; exact OM|].
  ib C r E. destruct r as [g2 b]. eapply IH; [eapply solve_inv, E; exact I1| |exact C].
  eapply one_frame_step; eauto. destruct I1. lia.
Qed.

(* calls of solve that keep the frames and in which the last frame sees the
   obstacles it has *)
Definition quiet (s : scfg) (nx : option (option sframe)) (fs : list sframe) (n : nat) (f : sframe) (i : input) : Prop :=
  check_frames s (i_curr i) fs n nx = Ok true /\ followed (i_obs i) /\ (forall k, 0 <= remaining s (i_T i) k) /\
  forall x, In x (s_moving f) <-> passing (lims f) (s_ts s) (remaining s (i_T i) (n - 1)) (i_obs i) x.

Lemma check_lims s curr fs fs' n nx : map lims fs' = map lims fs ->
  check_frames s curr fs' n nx = check_frames s curr fs n nx.
Proof.
  intros E. unfold check_frames. destruct fs as [|a r], fs' as [|a' r']; try discriminate; [reflexivity|].
  cbn [map] in E. injection E as E1 E2. fold (lims a) (lims a') in E1. rewrite E1.
  destruct r as [|b r], r' as [|b' r']; try discriminate; [reflexivity|].
  cbn [map] in E2. injection E2 as E3 E4. fold (lims b) (lims b') in E3. rewrite E3. reflexivity.
Qed.

Lemma quiet_keeps s N f ins : 0 < s_ts s -> forall g g' fs, inv s N g -> g_frames g = fs ++ [f] ->
  Forall (quiet s (g_next g) (g_frames g) (g_n g) f) ins ->
  solves s ins g = Ok g' -> g_rooms g' = g_rooms g.
Proof.
  intros HT. induction ins as [|i ins IH]; intros g g' fs I EF Q H; cbn in H; [injection H as <-; reflexivity|].
  ib H r E. destruct r as [g1 b]. inversion Q as [|? ? (V & FO & HR & SM) Q']; subst.
  assert (g_cnt g1 = g_cnt g) as CN.
  { pose proof E as X. apply solve_cases in X. destruct X as [(_ & ? & ? & _ & _ & D)|(C & _)]; [|congruence].
    destruct b; [destruct D as (rooms & _ & ->)|subst g1]; reflexivity. }
  pose proof (rebuild_iff _ _ _ _ _ _ _ _ _ _ I HT FO HR E CN EF) as [RB KEEP].
  pose proof I as [L _ _ _ _ _]. rewrite EF, app_length in L. cbn in L.
  replace (g_n g - 1)%nat with (length fs) in SM by lia.
  assert (b = false) as -> by (destruct b; [exfalso; apply RB; auto|reflexivity]).
  destruct (KEEP eq_refl) as [R (fs' & EF')].
  pose proof (no_switch _ _ _ _ _ _ _ E CN) as (LM & NN & NX & _).
  rewrite <- R. eapply (IH _ _ fs'); [eapply solve_inv, E; exact I|exact EF'| |exact H].
  rewrite NX, NN. eapply Forall_impl; [|exact Q']. intros j (V' & FO' & HR' & SM').
  split; [|auto]. rewrite (check_lims _ _ _ _ _ _ LM). exact V'.
Qed.
