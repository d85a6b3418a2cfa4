From Coq Require Import QArith Qabs List Bool Arith Lia Lqa.
From Verif Require Import Frame_Model Frame_Spec Frame_Proofs Frame_Proofs4 Sched_Model Sched_Spec Sched_Proofs.
Import ListNotations.
Open Scope Q_scope.

Record inv (s : scfg) (N : nat) (g : sched) : Prop := {
  i_len : length (g_frames g) = g_n g;
  i_n : (1 <= g_n g <= N)%nat;
  i_times : length (g_times g) = g_n g;
  i_rooms : rooms_match g;
  i_next : g_next g <> None -> N = 1%nat;
  i_fixed : s_freeT s = false -> N = 1%nat }.

Definition next_kin (a b : option (option sframe)) : Prop :=
  match a, b with
  | Some (Some x), Some (Some y) => kinw x y
  | Some (Some _), _ => False
  | x, y => x = y
  end.
Lemma next_kin_none a b : next_kin a b -> (b = None <-> a = None).
Proof. destruct a as [[x|]|], b as [[y|]|]; cbn; intuition congruence. Qed.

Lemma kinls_kins a b : Forall2 kinl a b -> Forall2 kin a b.
Proof. induction 1; constructor; auto. destruct H; auto. Qed.
Lemma kinls_lims a b : Forall2 kinl a b -> map lims b = map lims a.
Proof. induction 1 as [|x y l l' [K L] H IH]; [reflexivity|]. cbn [map]. rewrite IH, L. reflexivity. Qed.

Lemma map_room fs : map r_lim (map room_of fs) = map lims fs.
Proof. rewrite map_map. reflexivity. Qed.

(* the part that reinitialize and a change of frames have in common *)
Definition finish (s : scfg) (obs : list obstacle) (curr : pt) (old : option (list room)) (T : nat -> Q)
    (fs : list sframe) (n : nat) (next : option (option sframe)) : res (list sframe * list Q * target * list room) :=
  bind (get_init_guess s curr fs n next old T) (fun '(fs', ts, tg) =>
  bind (look s obs fs' ts) (fun fs'' =>
  bind (generate_problem fs'' n) (fun rooms => Ok (fs'', ts, tg, rooms)))).

Lemma finish_ok s obs curr old T fs n next fs' ts tg rooms : (n = 0%nat -> fs = []) ->
  finish s obs curr old T fs n next = Ok (fs', ts, tg, rooms) ->
  (1 <= n)%nat /\ length fs = n /\ length fs' = n /\ length ts = n /\ rooms = map room_of fs' /\
  map lims fs' = map lims fs /\ Forall2 kin fs fs' /\ Forall2 kinw (tl fs) (tl fs').
Proof.
  intros HL. unfold finish, get_init_guess. intros H. ib H r E. destruct r as [[fs0 ts0] tg0].
  ib E r E1. destruct r as [fs1 ts1]. ib E tg1 E2.
  assert (fs1 = fs0 /\ ts1 = ts0) as [-> ->] by (injection E; auto).
  ib H fs2 E3. ib H rm E4. injection H as -> -> <- ->.
  assert (1 <= n)%nat as N.
  { destruct n; [|lia]. exfalso. rewrite HL in E1 by reflexivity.
    unfold guess_all in E1. destruct old; cbn in E1.
    - discriminate.
    - injection E1 as <- <-. cbn in E2. discriminate. }
  apply guess_all_ok in E1; [|exact N]. destruct E1 as (K1 & L1 & M1 & T1).
  apply look_ok in E3. destruct E3 as (K2 & L2 & M2).
  apply generate_ok in E4. destruct E4 as [M3 ->].
  pose proof (kins_len _ _ (kinls_kins _ _ K1)) as X1. pose proof (kinws_len _ _ K2) as X2.
  assert (length fs' = n) as LF by lia.
  repeat split; try lia.
  - rewrite <- LF, firstn_all. reflexivity.
  - rewrite L2. apply kinls_lims, K1.
  - eapply kins_trans; [apply kinls_kins, K1|apply kinws_kins, K2].
  - rewrite <- T1. apply kinws_tl, K2.
Qed.

Lemma reinit_finish s obs T g g' : reinitialize s obs T g = Ok g' ->
  exists fs n next fs' ts tg rooms,
    create_frames s obs (with_goal s (w_planner0 (s_world s))) (g_curr g) (g_frames g) (g_n g) (g_next g)
      = Ok (fs, n, next) /\
    finish s obs (g_curr g) (if g_solved g then g_rooms g else None) T fs n next = Ok (fs', ts, tg, rooms) /\
    g' = Sched fs' n next (g_cnt g) ts (Some rooms) false (Some tg) (g_curr g).
Proof.
  unfold reinitialize. intros H. ib H r E. destruct r as [[fs n] next].
  ib H r E1. destruct r as [[fs1 ts] tg]. ib H fs2 E2. ib H rooms E3. injection H as <-.
  exists fs, n, next, fs2, ts, tg, rooms. split; [reflexivity|]. split; [|reflexivity].
  unfold finish. rewrite E1. cbn [bind]. rewrite E2. cbn [bind]. rewrite E3. reflexivity.
Qed.

(* the first creation *)
Lemma first_frames s obs path curr n fs n' next' :
  create_frames s obs path curr [] n None = Ok (fs, n', next') ->
  exists fs0 next0, create_loop s obs path curr n None [] n None = Ok (fs0, n', next0) /\
    l_frames s obs path fs0 n' next0 = Ok (fs, next') /\
    Forall2 kinw fs0 fs /\ next_kin next0 next' /\
    ((length fs = n /\ n' = n) \/ ((length fs < n)%nat /\ n' = (n - 1)%nat /\ (2 <= n)%nat /\
      exists f, hd_error (rev fs0) = Some f /\ goal_last s f)) /\
    (next' <> None -> n = 1%nat).
Proof.
  unfold create_frames. intros H. ib H r E. destruct r as [[fs0 n0] next0].
  ib H r E1. destruct r as [fs1 next1]. injection H as <- <- <-.
  exists fs0, next0. split; [reflexivity|]. split; [exact E1|].
  pose proof (create_loop_len _ _ _ _ _ _ _ _ _ _ _ _ E) as (new & -> & D & NX).
  cbn [app] in *.
  assert (D' : (length new = n /\ n0 = n) \/ ((length new < n)%nat /\ n0 = (n - 1)%nat /\ (2 <= n)%nat /\
      exists f, hd_error (rev new) = Some f /\ goal_last s f)).
  { destruct D as [D|(D & -> & G)]; [left; exact D|right].
    destruct (rev new) as [|f r] eqn:ER; [contradiction|].
    split; [exact D|]. split; [reflexivity|]. split.
    - assert (length (rev new) = length new) by apply rev_length. rewrite ER in H. cbn in H. lia.
    - exists f. auto. }
  assert (n = 1%nat -> length new = 1%nat) as N1 by lia.
  assert (n <> 1%nat -> next0 = None) as N2 by exact NX.
  apply l_frames_kinw in E1.
  2:{ intros -> NN. destruct (Nat.eq_dec n 1) as [->|Z]; [auto|]. exfalso. apply NN, N2, Z. }
  destruct E1 as [K NK]. pose proof (kinws_len _ _ K) as L.
  split; [exact K|]. split; [exact NK|]. split.
  - destruct D' as [[X Y]|(X & Y & Z & W)]; [left; split; congruence|right].
    split; [lia|]. auto.
  - intros NN. destruct (Nat.eq_dec n 1) as [->|Z]; [reflexivity|exfalso].
    apply NN. apply (next_kin_none _ _ NK). apply N2, Z.
Qed.

Definition fresh (g : sched) : Prop := g_frames g = [] /\ g_next g = None.

Lemma reinit_inv s obs T g g' : fresh g -> (s_freeT s = false -> g_n g = 1%nat) ->
  reinitialize s obs T g = Ok g' ->
  inv s (g_n g) g' /\ (g_n g' = g_n g \/ (S (g_n g') = g_n g /\ (2 <= g_n g)%nat)).
Proof.
  intros [F1 F2] FX H. apply reinit_finish in H.
  destruct H as (fs & n & next & fs' & ts & tg & rooms & C & F & ->). rewrite F1, F2 in C.
  apply first_frames in C. destruct C as (fs0 & next0 & _ & _ & _ & _ & D & NX).
  apply finish_ok in F.
  2:{ intros ->. destruct D as [[X Y]|(X & Y & Z & _)]; [|lia]. destruct fs; [reflexivity|cbn in X; lia]. }
  destruct F as (N & L & L' & LT & -> & LM & K & _).
  split.
  - constructor; cbn; auto.
    + split; [exact N|]. destruct D as [[X Y]|(X & Y & Z & _)]; lia.
    + exists (map room_of fs'). split; [reflexivity|apply map_room].
  - cbn. destruct D as [[X Y]|(X & Y & Z & _)]; [left; lia|right; lia].
Qed.

(* ---- solve --------------------------------------------------------------- *)

Lemma check_false s curr g N : inv s N g ->
  check_frames s curr (g_frames g) (g_n g) (g_next g) = Ok false ->
  (g_n g = 1%nat /\ exists f nf, g_frames g = [f] /\ g_next g = Some (Some nf) /\
     point_in_frame (lims nf) curr (w_veh (s_world s)) = true) \/
  ((2 <= g_n g)%nat /\ g_next g = None /\ exists f0 f1 rest, g_frames g = f0 :: f1 :: rest /\
     point_in_frame (lims f1) curr (w_veh (s_world s)) = true).
Proof.
  intros I. destruct I as [L B _ _ NX _]. unfold check_frames.
  destruct (g_frames g) as [|f0 rest] eqn:F; [discriminate|].
  destruct (point_in_frame (lims f0) _ _); [discriminate|].
  assert (two : forall o : res bool, (match rest with
            | [] => Err IndexError
            | f1 :: _ => Ok (negb (point_in_frame (lims f1) curr (w_veh (s_world s))))
            end) = Ok false -> (2 <= g_n g)%nat /\ exists f1 rest', rest = f1 :: rest' /\
             point_in_frame (lims f1) curr (w_veh (s_world s)) = true).
  { intros _ H. destruct rest as [|f1 rest]; [discriminate|]. injection H as H. apply negb_false_iff in H.
    split; [cbn in L; lia|]. eauto. }
  specialize (two (Ok false)).
  destruct (g_n g =? 1)%nat eqn:N1.
  - apply Nat.eqb_eq in N1. destruct (g_next g) as [[nf|]|] eqn:G.
    + intros [= H]. apply negb_false_iff in H. left. split; [exact N1|].
      destruct rest; [|cbn in L; lia]. exists f0, nf. auto.
    + discriminate.
    + intros H. apply two in H. destruct H. lia.
  - intros H. apply two in H. destruct H as (T & f1 & rest' & -> & P). right. split; [exact T|].
    split; [|eauto 6]. destruct (g_next g) eqn:G; [|reflexivity]. specialize (NX ltac:(discriminate)). lia.
Qed.

(* what a change of frames does to the list of frames *)
Lemma move_on_ok s obs path curr g N fs n next : inv s N g ->
  check_frames s curr (g_frames g) (g_n g) (g_next g) = Ok false ->
  move_on s obs path curr (g_frames g) (g_n g) (g_next g) (next_arg (g_n g) (g_next g)) = Ok (fs, n, next) ->
  (g_n g = 1%nat /\ n = 1%nat /\ exists nf f, g_next g = Some (Some nf) /\ fs = [f] /\ kinw nf f /\
     exists new new', create_next_frame s obs path nf = Ok new /\ next = Some new' /\
       match new, new' with Some a, Some b => kinw a b | None, None => True | _, _ => False end) \/
  ((2 <= g_n g)%nat /\ g_next g = None /\ next = None /\ exists new,
     Forall2 kinw (tl (g_frames g) ++ new) fs /\
     ((length new = 1%nat /\ n = g_n g) \/
      (new = [] /\ n = (g_n g - 1)%nat /\ exists f, hd_error (rev (tl (g_frames g))) = Some f /\ goal_last s f)) /\
     exists f n', hd_error (rev (tl (g_frames g))) = Some f /\
       create_loop s obs path curr 1 (Some f) (tl (g_frames g)) (g_n g) None
       = Ok (tl (g_frames g) ++ new, n', None)).
Proof.
  intros I C H. pose proof (check_false _ _ _ _ I C) as D. unfold move_on, next_arg in H.
  destruct D as [(N1 & f & nf & F & G & P)|(N2 & G & f0 & f1 & rest & F & P)].
  - left. rewrite N1, G, F in H. cbn [Nat.eqb] in H. ib H new E.
    split; [exact N1|].
    assert (plainc : Ok ([nf], 1%nat, Some new) = Ok (fs, n, next) ->
      n = 1%nat /\ exists nf0 f2, g_next g = Some (Some nf0) /\ fs = [f2] /\ kinw nf0 f2 /\
       exists new0 new', create_next_frame s obs path nf0 = Ok new0 /\ next = Some new' /\
       match new0, new' with Some a, Some b => kinw a b | None, None => True | _, _ => False end).
    { intros [= <- <- <-]. split; [reflexivity|]. exists nf, nf. split; [exact G|]. split; [reflexivity|].
      split; [split; [apply kin_refl|reflexivity]|]. exists new, new. split; [exact E|]. split; [reflexivity|].
      destruct new; [|exact Logic.I]. split; [apply kin_refl|reflexivity]. }
    destruct (s_type s); try exact (plainc H). destruct (s_lshape s); try exact (plainc H).
    destruct new as [new'|]; try exact (plainc H). clear plainc.
    ib H r E1. destruct r as [a b]. injection H as <- <- <-. apply l_shape_kinw in E1. destruct E1 as [Ka Kb].
    split; [reflexivity|]. exists nf, a. repeat (split; [first [exact G|reflexivity|exact Ka]|]).
    exists (Some new'), (Some b). auto.
  - right. split; [exact N2|]. split; [exact G|].
    destruct (g_n g =? 1)%nat eqn:N1; [apply Nat.eqb_eq in N1; lia|].
    rewrite G, F in H. unfold create_frames in H. rewrite N1 in H. cbv zeta in H.
    destruct (rev (f1 :: rest)) as [|fl r] eqn:ER.
    { apply (f_equal (@length _)) in ER. rewrite rev_length in ER. discriminate. }
    ib H x E. destruct x as [[fs0 n0] next0]. ib H y E1. destruct y as [fs1 next1]. injection H as <- <- <-.
    pose proof (create_loop_len _ _ _ _ _ _ _ _ _ _ _ _ E) as (new & -> & D & NX).
    apply Nat.eqb_neq in N1. specialize (NX N1). subst next0.
    apply l_frames_kinw in E1; [|congruence]. destruct E1 as [K NK].
    split; [symmetry; exact NK|]. exists new. rewrite F. cbn [tl]. split; [exact K|]. split.
    + destruct D as [D|(D & -> & GL)]; [left; exact D|right].
      destruct new; [|cbn in D; lia]. split; [reflexivity|]. split; [reflexivity|]. exists fl.
      rewrite ER. auto.
    + exists fl, n0. rewrite ER. auto.
Qed.

Lemma solve_cases s curr obs T g g' b : solve s curr obs T g = Ok (g', b) ->
  (check_frames s curr (g_frames g) (g_n g) (g_next g) = Ok true /\
   exists fs ts, (if s_freeT s then set_times (g_times g) 0 (g_n g) T = Ok ts else ts = [w_horizon (s_world s)]) /\
     compare s obs (g_frames g) ts false = Ok (fs, b) /\
     (if b then exists rooms, generate_problem fs (g_n g) = Ok rooms /\
          g' = Sched fs (g_n g) (g_next g) (g_cnt g) ts (Some rooms) true (g_target g) curr
      else g' = Sched fs (g_n g) (g_next g) (g_cnt g) ts (g_rooms g) true (g_target g) curr)) \/
  (check_frames s curr (g_frames g) (g_n g) (g_next g) = Ok false /\ b = true /\
   exists fs n next fs' ts tg rooms,
     move_on s obs (with_goal s (w_planner (s_world s) curr)) curr (g_frames g) (g_n g) (g_next g)
       (next_arg (g_n g) (g_next g)) = Ok (fs, n, next) /\
     finish s obs curr (if g_solved g then g_rooms g else None) T fs n next = Ok (fs', ts, tg, rooms) /\
     g' = Sched fs' n next (S (g_cnt g)) ts (Some rooms) true (Some tg) curr).
Proof.
  unfold solve. intros H. ib H v E. destruct v; [left|right]; (split; [reflexivity|]).
  - ib H ts E1. ib H r E2. destruct r as [fs new]. exists fs, ts. split.
    + destruct (s_freeT s); [|congruence]. ib E1 r E3. exact E1.
    + destruct new.
      * ib H rooms E3. injection H as <- <-. split; [exact E2|]. exists rooms. split; reflexivity.
      * injection H as <- <-. split; [exact E2|reflexivity].
  - ib H r E0. destruct r as [[fs n] next].
    ib H r E1. destruct r as [[fs1 ts] tg]. ib H fs2 E2. ib H rooms E3. injection H as <- <-.
    split; [reflexivity|].
    exists fs, n, next, fs2, ts, tg, rooms. split; [reflexivity|]. split; [|reflexivity].
    unfold finish. rewrite E1. cbn [bind]. rewrite E2. cbn [bind]. rewrite E3. reflexivity.
Qed.

Lemma solve_inv s N curr obs T g g' b : inv s N g -> solve s curr obs T g = Ok (g', b) -> inv s N g'.
Proof.
  intros I H. pose proof I as [L B LT RM NX FX]. apply solve_cases in H.
  destruct H as [(C & fs & ts & TS & CM & D)|(C & -> & fs & n & next & fs' & ts & tg & rooms & M & F & ->)].
  - apply compare_ok in CM. destruct CM as (K & LM & LE). apply kinws_len in K.
    assert (length ts = g_n g) as LTS.
    { destruct (s_freeT s) eqn:FT; [apply set_times_ok in TS; lia|subst ts; cbn].
      specialize (FX eq_refl). lia. }
    destruct b.
    + destruct D as (rooms & G & ->). apply generate_ok in G. destruct G as [_ ->].
      constructor; cbn; auto; try congruence.
      exists (map room_of (firstn (g_n g) fs)). split; [reflexivity|]. rewrite map_room. cbn.
      replace (g_n g) with (length fs) by congruence. rewrite firstn_all. reflexivity.
    + subst g'. constructor; cbn; auto; try congruence.
      destruct RM as (rooms & R & E). exists rooms. cbn. split; [exact R|]. congruence.
  - pose proof (move_on_ok _ _ _ _ _ _ _ _ _ I C M) as D.
    assert (n0 : n = 0%nat -> fs = []).
    { intros ->. destruct D as [(_ & X & _)|(N2 & _ & _ & new & _ & [[_ X]|(_ & X & _)] & _)]; lia. }
    apply finish_ok in F; [|exact n0]. destruct F as (N1 & L1 & L2 & L3 & -> & LM & K & _).
    constructor; cbn; auto.
    + split; [exact N1|]. destruct D as [(_ & X & _)|(N2 & _ & _ & new & _ & [[_ X]|(_ & X & _)] & _)]; lia.
    + exists (map room_of fs'). split; [reflexivity|apply map_room].
    + destruct D as [(X & _)|(_ & _ & X & _)]; [|congruence]. intros _.
      pose proof (check_false _ _ _ _ I C) as Y.
      destruct (g_next g) eqn:G; [apply NX; discriminate|].
      destruct Y as [(_ & ? & ? & _ & Y & _)|(Y & _)]; [discriminate|lia].
Qed.

Lemma solves_inv s N ins : forall g g', inv s N g -> solves s ins g = Ok g' -> inv s N g'.
Proof.
  induction ins as [|i ins IH]; intros g g' I H; cbn in H; [injection H as <-; exact I|].
  ib H r E. destruct r as [g1 b]. eapply IH; [eapply solve_inv, E; exact I|exact H].
Qed.

Lemma init_fresh w o curr s g : sched_init w o curr = Ok (s, g) ->
  exists opts, o = Some opts /\ s_world s = w /\ s_type s = opt (o_ftype opts) Shift /\
    s_fine s = o_fine opts /\ s_lshape s = opt (o_lshape opts) false /\
    fresh g /\ g_n g = opt (o_nframes opts) 1%nat /\ g_curr g = curr /\ g_solved g = false /\
    (s_freeT s = false -> (g_n g <= 1)%nat).
Proof.
  unfold sched_init. destruct o as [o|]; [|discriminate].
  destruct (_ && _) eqn:E; [discriminate|]. intros [= <- <-]. exists o. cbn.
  repeat split. intros F. rewrite F in E. destruct (opt (o_nframes o) 1%nat) as [|[|k]]; [lia|lia|discriminate E].
Qed.

Lemma execute_cases w o start ins s g : execute w o start ins = Ok (s, g) ->
  exists g0 g1, sched_init w o (i_curr start) = Ok (s, g0) /\
    reinitialize s (i_obs start) (i_T start) g0 = Ok g1 /\ solves s ins g1 = Ok g.
Proof.
  unfold execute. intros H. ib H r E. destruct r as [s0 g0]. ib H g1 E1. ib H g2 E2. injection H as <- <-.
  eauto.
Qed.

Lemma reinit_n0 s obs T g g' : fresh g -> g_n g = 0%nat -> reinitialize s obs T g <> Ok g'.
Proof.
  intros [F1 F2] Z H. apply reinit_finish in H.
  destruct H as (fs & n & next & fs' & ts & tg & rooms & C & F & ->). rewrite F1, F2, Z in C.
  apply first_frames in C. destruct C as (fs0 & next0 & _ & _ & _ & _ & D & _).
  apply finish_ok in F; [destruct F as (N & _); lia|].
  intros _. destruct D as [[X _]|X]; [|lia]. destruct fs; [reflexivity|discriminate].
Qed.

Lemma execute_inv w o start ins s g : execute w (Some o) start ins = Ok (s, g) ->
  inv s (opt (o_nframes o) 1%nat) g.
Proof.
  intros H. apply execute_cases in H. destruct H as (g0 & g1 & A & B & C).
  apply init_fresh in A. destruct A as (o' & [= <-] & _ & _ & _ & _ & F & N & _ & _ & FX).
  rewrite <- N. eapply solves_inv; [|exact C]. eapply reinit_inv; [exact F| |exact B].
  intros X. specialize (FX X). destruct (g_n g0) as [|[|k]] eqn:E; [|reflexivity|lia].
  exfalso. eapply reinit_n0; [exact F|exact E|exact B].
Qed.

Lemma window_kept w o start ins s g : execute w (Some o) start ins = Ok (s, g) ->
  window (opt (o_nframes o) 1%nat) g /\ rooms_match g.
Proof. intros H. apply execute_inv in H. destruct H. split; [split|]; assumption. Qed.
