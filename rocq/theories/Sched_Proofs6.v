From Coq Require Import QArith Qabs List Bool Arith ZArith Lia Lqa.
From Verif Require Import Frame_Model Frame_Spec Frame_Proofs Frame_Proofs4 Frame_Proofs6 Sched_Model Sched_Spec
  Sched_Proofs Sched_Proofs2 Sched_Proofs3 Sched_Proofs4 Sched_Proofs5.
Import ListNotations.
Open Scope Q_scope.

(* ---- motion times -------------------------------------------------------- *)

Lemma last_first {A} (l : list A) a d d' : last (a :: l) d = last (a :: l) d'.
Proof. revert a. induction l as [|b l IH]; intros a; [reflexivity|]. exact (IH b). Qed.

Lemma net_ends ps : forall p, fst (net (p :: ps)) == fst (last (p :: ps) p) - fst p /\
  snd (net (p :: ps)) == snd (last (p :: ps) p) - snd p.
Proof.
  induction ps as [|q ps IH]; intros p; [cbn; split; lra|].
  destruct (IH q) as [A B]. change (net (p :: q :: ps)) with
    (fst q - fst p + fst (net (q :: ps)), snd q - snd p + snd (net (q :: ps))). cbn [fst snd].
  change (last (p :: q :: ps) p) with (last (q :: ps) p). rewrite (last_first ps q p q).
  rewrite A, B. split; lra.
Qed.

Lemma all_pts_some ws ps : all_pts ws = Ok ps -> ws = map Some ps.
Proof.
  revert ps. induction ws as [|[p|] ws IH]; intros ps H; cbn in H; [injection H as <-; reflexivity| |discriminate].
  ib H r E. injection H as <-. cbn. f_equal. apply IH. reflexivity.
Qed.

Lemma guess_straight s ws t : respects (w_sqrt (s_world s)) -> ~ w_vmax (s_world s) == 0 ->
  guess_time s ws = Ok t -> straight s ws t.
Proof.
  intros R V H. unfold guess_time in H. ib H ps E. apply all_pts_some in E. subst ws.
  exists ps. split; [reflexivity|]. intros p EP. destruct ps as [|p' ps]; [discriminate|]. injection EP as ->.
  destruct (net (p :: ps)) as [lx ly] eqn:EN.
  pose proof (net_ends ps p) as [A B]. rewrite EN in A, B. cbn [fst snd] in A, B.
  destruct (_ && _); [discriminate|]. injection H as <-.
  assert (w_sqrt (s_world s) (lx * lx + ly * ly) == w_sqrt (s_world s) (sq_dist p (last (p :: ps) p))) as X.
  { apply R. unfold sq_dist. rewrite A, B. ring. }
  rewrite <- X. field. intros Z. apply V. lra.
Qed.

(* a holonomic vehicle: no motion time when the waypoints end where they begin *)
Lemma guess_closed s p ps : w_dubins (s_world s) = false ->
  guess_time s (map Some (p :: ps)) = Err RuntimeError <-> pt_eq (last (p :: ps) p) p.
Proof.
  intros D. unfold guess_time.
  assert (forall l, all_pts (map Some l) = Ok l) as AP by (induction l as [|a l IH]; [reflexivity|]; cbn; rewrite IH; reflexivity).
  rewrite AP. cbn [bind]. destruct (net (p :: ps)) as [lx ly] eqn:EN.
  pose proof (net_ends ps p) as [A B]. rewrite EN in A, B. cbn [fst snd] in A, B. rewrite D. cbn [negb andb].
  unfold pt_eq, eqb. destruct (Qeq_bool lx 0) eqn:E1.
  - apply Qeq_bool_iff in E1. destruct (Qeq_bool ly 0) eqn:E2; cbn [andb].
    + apply Qeq_bool_iff in E2. split; [intros _|reflexivity]. split; lra.
    + apply Qeq_bool_neq in E2. split; [discriminate|]. intros [X Y]. exfalso. apply E2. lra.
  - apply Qeq_bool_neq in E1. cbn [andb]. split; [discriminate|]. intros [X Y]. exfalso. apply E1. lra.
Qed.

Lemma guess_frames_times s curr m : forall zero fs fs' ts,
  guess_frames s curr zero m fs = Ok (fs', ts) ->
  forall k f t, nth_error fs' k = Some f -> nth_error ts k = Some t ->
    guess_time s (f_waypoints (sf f)) = Ok t /\
    (zero = false -> nth_error fs k = Some f) /\
    (zero = true -> k = 0%nat -> exists ws, f_waypoints (sf f) = Some curr :: ws).
Proof.
  induction m as [|m IH]; intros zero fs fs' ts H k f t E1 E2; cbn [guess_frames] in H.
  - injection H as <- <-. destruct k; discriminate.
  - destruct fs as [|f0 rest]; [discriminate|]. ib H f' E. ib H t' E3. ib H r E4. destruct r as [rest' ts'].
    injection H as <- <-. destruct k as [|k]; cbn [nth_error] in E1, E2.
    + injection E1 as <-. injection E2 as <-. split; [exact E3|]. split.
      * intros ->. injection E as <-. reflexivity.
      * intros -> _. unfold start_here in E. destruct (f_waypoints (sf f0)) as [|w ws]; [discriminate|].
        injection E as <-. cbn. eauto.
    + destruct (IH _ _ _ _ E4 _ _ _ E1 E2) as (A & B & _). split; [exact A|]. split; [|lia].
      intros _. cbn. apply B. reflexivity.
Qed.

Lemma kinw_nth a b k y : Forall2 kinw a b -> nth_error b k = Some y ->
  exists x, nth_error a k = Some x /\ kinw x y.
Proof.
  intros H. revert k. induction H as [|x z l l' K H IH]; intros k E; [destruct k; discriminate|].
  destruct k as [|k]; cbn in E; [injection E as <-; exists x; auto|]. apply IH, E.
Qed.

(* at the start: every frame, the straight way *)
Lemma start_times w o start s g : execute w (Some o) start [] = Ok (s, g) ->
  respects (w_sqrt w) -> ~ w_vmax w == 0 ->
  forall k f t, nth_error (g_frames g) k = Some f -> nth_error (g_times g) k = Some t ->
    straight s (f_waypoints (sf f)) t /\
    (k = 0%nat -> exists ws, f_waypoints (sf f) = Some (i_curr start) :: ws).
Proof.
  intros H RS V k f t EF ET. apply execute_cases in H. destruct H as (g0 & g1 & A & B & C). cbn in C. injection C as ->.
  pose proof (init_of _ _ _ _ _ A) as (_ & _ & W).
  apply init_fresh in A. destruct A as (o' & [= <-] & _ & _ & _ & _ & [F1 F2] & N & CU & SO & FX).
  apply reinit_finish in B. destruct B as (fs & n & next & fs' & ts & tg & rooms & C & F & ->).
  cbn [g_frames g_times] in EF, ET. rewrite SO in F. unfold finish, get_init_guess in F. ib F r E. ib E r' E1. destruct r' as [fs1 ts1].
  ib E tg1 E2. destruct r as [[fs2 ts2] tg2].
  assert (fs1 = fs2 /\ ts1 = ts2) as [-> ->] by (injection E; auto). clear E.
  ib F fs3 E3. ib F rm E4. injection F as -> -> <- ->. cbn [guess_all] in E1.
  pose proof (look_ok _ _ _ _ _ E3) as (K & _ & _).
  destruct (kinw_nth _ _ _ _ K EF) as (x & EX & [_ KW]).
  destruct (guess_frames_times _ _ _ _ _ _ _ E1 _ _ _ EX ET) as (G & _ & Z). rewrite CU in Z.
  rewrite KW. split.
  - apply guess_straight; [rewrite W; exact RS|rewrite W; exact V|exact G].
  - intros ->. apply Z; reflexivity.
Qed.

Lemma get_Ts_nth rooms T m : forall k ts j, get_Ts rooms T k m = Ok ts -> (j < m)%nat ->
  nth_error ts j = Some (T (k + j)%nat).
Proof.
  induction m as [|m IH]; intros k ts j H J; [lia|]. cbn in H. ib H t E. ib H r E1. injection H as <-.
  unfold get_T in E. destruct (k <? length rooms)%nat; [|discriminate]. injection E as <-.
  destruct j as [|j]; cbn; [rewrite Nat.add_0_r; reflexivity|].
  rewrite (IH _ _ j E1) by lia. do 2 f_equal. lia.
Qed.

(* when the vehicle moves on to the next frame *)
Lemma switch_times s N curr obs T g g' b : inv s N g -> g_solved g = true ->
  solve s curr obs T g = Ok (g', b) -> g_cnt g' <> g_cnt g ->
  respects (w_sqrt (s_world s)) -> ~ w_vmax (s_world s) == 0 ->
  exists ts t fs f, g_times g' = ts ++ [t] /\ g_frames g' = fs ++ [f] /\
    straight s (f_waypoints (sf f)) t /\ length ts = (g_n g' - 1)%nat /\
    (forall x, nth_error ts 0 = Some x -> x = T 0%nat + T 1%nat) /\
    (forall k x, (1 <= k)%nat -> nth_error ts k = Some x -> x = T (S k)).
Proof.
  intros IV SV H CN RS V. pose proof (solve_inv _ _ _ _ _ _ _ _ IV H) as IV'.
  apply solve_cases in H. destruct H as [(_ & ? & ? & _ & _ & D)|(C & -> & R)].
  { exfalso. apply CN. destruct b; [destruct D as (rooms & _ & ->)|subst g']; reflexivity. }
  destruct R as (fs & n & next & fs' & ts & tg & rooms & M & F & ->). rewrite SV in F.
  destruct IV' as [LN NN _ _ _ _]. cbn [g_times g_frames g_n] in *.
  assert (exists rooms0, g_rooms g = Some rooms0) as (rooms0 & ER).
  { pose proof (i_rooms _ _ _ IV) as (r & -> & _). eauto. }
  rewrite ER in F. unfold finish, get_init_guess in F. ib F r E. ib E r' E1. destruct r' as [fs1 ts1].
  ib E tg1 E2. destruct r as [[fs2 ts2] tg2].
  assert (fs1 = fs2 /\ ts1 = ts2) as [-> ->] by (injection E; auto). clear E.
  ib F fs3 E3. ib F rm E4. injection F as -> -> <- ->.
  pose proof (look_ok _ _ _ _ _ E3) as (K & _ & LE).
  cbn [guess_all] in E1. ib E1 ts' E5. ib E1 r E6. destruct r as [fl t]. injection E1 as <- <-.
  pose proof (guess_frames_ok _ _ _ _ _ _ _ E6) as (KL & LT & LF & _).
  destruct t as [|t [|? ?]]; try discriminate. clear LT.
  assert (length fl = length (skipn (n - 1) fs)) as LL.
  { clear - KL. induction KL; cbn; congruence. }
  pose proof (kinws_len _ _ K) as L3. rewrite app_length, firstn_length, LL, skipn_length in L3.
  rewrite skipn_length in LF.
  rewrite skipn_length in LL.
  assert (length fl = 1%nat) as L1 by lia. destruct fl as [|f1 [|? ?]]; try discriminate.
  unfold reuse_times in E5. ib E5 h1 E7. ib E5 mid E8. injection E5 as <-.
  pose proof (get_Ts_len _ _ _ _ _ E8) as [LM _].
  destruct (last_split fs') as (fs3 & f & ->); [destruct fs'; [cbn in LN; lia|discriminate]|].
  assert (kinw f1 f) as [_ KW].
  { apply Forall2_app_inv_r in K. destruct K as (l1 & l2 & K1 & K2 & E).
    inversion K2 as [|x ? ? ? KF K3]; subst. inversion K3; subst.
    apply app_inj_tail in E. destruct E as [_ ->]. exact KF. }
  destruct (guess_frames_times _ _ _ _ _ _ _ E6 0%nat f1 t eq_refl eq_refl) as (G & _ & _).
  exists (h1 ++ mid), t, fs3, f. split; [reflexivity|]. split; [reflexivity|].
  split; [rewrite KW; apply guess_straight; assumption|].
  destruct (1 <? n)%nat eqn:GT.
  - apply Nat.ltb_lt in GT. ib E7 a EA. ib E7 c EB. injection E7 as <-.
    unfold get_T in EA, EB. destruct (0 <? _)%nat; [|discriminate]. destruct (1 <? _)%nat; [|discriminate].
    injection EA as <-. injection EB as <-. cbn [app length nth_error]. split; [lia|]. split.
    + intros x [= <-]. reflexivity.
    + intros k x K1 EX. destruct k as [|k]; [lia|]. cbn in EX.
      assert (k < length mid)%nat as LK by (apply nth_error_Some; congruence).
      rewrite (get_Ts_nth _ _ _ _ _ k E8) in EX by lia. injection EX as <-. reflexivity.
  - apply Nat.ltb_ge in GT. injection E7 as <-. assert (n = 1%nat) as -> by lia.
    cbn in LM. destruct mid; [|discriminate]. cbn. split; [reflexivity|]. split; [discriminate|].
    intros k x _ E. destruct k; discriminate.
Qed.
