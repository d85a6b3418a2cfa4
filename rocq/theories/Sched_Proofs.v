From Coq Require Import QArith Qabs List Bool Arith Lia Lqa.
From Verif Require Import Frame_Model Frame_Spec Frame_Proofs Frame_Proofs4 Sched_Model Sched_Spec.
Import ListNotations.
Open Scope Q_scope.

Ltac ib H x E := match type of H with
  | bind ?e _ = Ok _ => destruct e as [x|] eqn:E; [cbn [bind] in H|discriminate H] end.

(* ---- frames up to border, waypoints, moving obstacles -------------------- *)

Definition kin (f f' : sframe) : Prop :=
  f_endpoint (sf f') = f_endpoint (sf f) /\ f_start (sf f') = f_start (sf f) /\
  f_stationary (sf f') = f_stationary (sf f).
Lemma kin_refl f : kin f f. Proof. repeat split. Qed.
Lemma kin_trans a b c : kin a b -> kin b c -> kin a c.
Proof. intros (A & B & C) (A' & B' & C'). repeat split; congruence. Qed.
Lemma kins_refl fs : Forall2 kin fs fs.
Proof. induction fs; constructor; auto using kin_refl. Qed.
Lemma kins_trans a b c : Forall2 kin a b -> Forall2 kin b c -> Forall2 kin a c.
Proof.
  intros H; revert c. induction H; intros c G; inversion G; subst; constructor; eauto using kin_trans.
Qed.
Lemma kins_len a b : Forall2 kin a b -> length b = length a.
Proof. induction 1; cbn; congruence. Qed.

Lemma chain_kin a b : Forall2 kin a b -> chain a -> chain b.
Proof.
  intros H. induction H as [|x y l l' K H IH]; [trivial|].
  intros C. destruct H as [|x' y' l l' K' H]; [exact I|].
  destruct C as [F C]. split; [|apply IH, C].
  unfold follows in *. destruct K as (-> & _), K' as (_ & -> & _). exact F.
Qed.

(* waypoints end in the endpoint *)
Definition proper (f : sframe) : Prop := last_wp f = Ok (f_endpoint (sf f)) /\ f_endpoint (sf f) <> None.

(* same as kin, and the same waypoints *)
Definition kinw (f f' : sframe) : Prop := kin f f' /\ f_waypoints (sf f') = f_waypoints (sf f).
Lemma kinw_proper f f' : kinw f f' -> proper f -> proper f'.
Proof. intros [(E & _ & _) W] [P N]. unfold proper, last_wp in *. rewrite W, E. auto. Qed.
Lemma kinws_proper a b : Forall2 kinw a b -> Forall proper a -> Forall proper b.
Proof. induction 1; intros P; inversion P; subst; constructor; eauto using kinw_proper. Qed.
Lemma kinws_refl fs : Forall2 kinw fs fs.
Proof. induction fs; constructor; auto. split; [apply kin_refl|reflexivity]. Qed.
Lemma kinws_kins a b : Forall2 kinw a b -> Forall2 kin a b.
Proof. induction 1; constructor; auto. destruct H; auto. Qed.
Lemma kinw_trans a b c : kinw a b -> kinw b c -> kinw a c.
Proof. intros [A B] [A' B']. split; [eauto using kin_trans|congruence]. Qed.
Lemma kinws_trans a b c : Forall2 kinw a b -> Forall2 kinw b c -> Forall2 kinw a c.
Proof.
  intros H; revert c. induction H; intros c G; inversion G; subst; constructor; eauto using kinw_trans.
Qed.
Lemma kinws_tl a b : Forall2 kinw a b -> Forall2 kinw (tl a) (tl b).
Proof. destruct 1; cbn; auto. Qed.
Lemma kinws_len a b : Forall2 kinw a b -> length b = length a.
Proof. intros H. apply kins_len, kinws_kins, H. Qed.

(* ---- creation ------------------------------------------------------------ *)

Lemma map_last {A} (l : list A) d : l <> [] -> rev (map Some l) = Some (last l d) :: tl (rev (map Some l)).
Proof.
  intros N. destruct (exists_last N) as (l' & x & ->).
  rewrite last_last, map_app, rev_app_distr. reflexivity.
Qed.

Lemma move_point_some veh m l before p ws : reach_move_point veh m l before p = Ok ws -> ws <> [].
Proof.
  unfold reach_move_point. destruct (too_close l (veh * m) p).
  - intros H. ib H x E. destruct x as [n q]. injection H as <-. now destruct (firstn _ _).
  - intros H. injection H as <-. now destruct before.
Qed.

Lemma corridor_proper s obs start path f : make_corridor s obs start path = Ok f ->
  proper f /\ f_start (sf f) = start /\ s_moving f = [].
Proof.
  unfold make_corridor. destruct (s_fine s); [|discriminate]. intros H. ib H x E. injection H as <-.
  unfold corridor_frame in E. ib E y E1. destruct y as [l0 ws0]. ib E z E2. destruct z as [l ws].
  ib E ws' E3. ib E st E4. injection E as <-. cbn.
  split; [split|split]; try reflexivity; [|discriminate].
  unfold last_wp. cbn. rewrite (map_last _ (0, 0)); [reflexivity|]. eapply move_point_some, E3.
Qed.

Lemma next_frame_corridor s obs path f r : s_type s = Corridor ->
  create_next_frame s obs path f = Ok r ->
  match r with None => ends_in f (w_goal (s_world s)) | Some nf => follows f nf /\ proper nf end.
Proof.
  unfold create_next_frame. intros TY. rewrite TY.
  destruct (is_pt (f_endpoint (sf f)) (w_goal (s_world s))) eqn:G.
  - intros [= <-]. unfold is_pt in G. destruct (f_endpoint (sf f)) as [e|] eqn:E; [|discriminate].
    exists e. split; [exact E|]. apply pt_eqb_iff, G.
  - destruct (f_endpoint (sf f)) as [e|] eqn:E; [|discriminate].
    intros H. ib H nf E1. injection H as <-. apply corridor_proper in E1. destruct E1 as (P & St & _).
    split; [unfold follows; congruence|exact P].
Qed.

Definition goal_last (s : scfg) (f : sframe) : Prop :=
  exists w, last_wp f = Ok w /\ is_pt w (w_goal (s_world s)) = true.

Lemma create_loop_len s obs path curr k : forall prev frames n next fs n' next',
  create_loop s obs path curr k prev frames n next = Ok (fs, n', next') ->
  exists new, fs = frames ++ new /\
    ((length new = k /\ n' = n) \/
     ((length new < k)%nat /\ n' = (n - 1)%nat /\
       match rev new, prev with f :: _, _ => goal_last s f | [], Some f => goal_last s f | [], None => False end)) /\
    (n <> 1%nat -> next' = next).
Proof.
  induction k as [|k IH]; intros prev frames n next fs n' next' H; cbn [create_loop] in H.
  - injection H as <- <- <-. exists []. rewrite app_nil_r. split; [reflexivity|]. split; [left; auto|auto].
  - ib H start E0.
    destruct (match prev with None => false | Some _ => is_pt start (w_goal (s_world s)) end) eqn:G.
    + injection H as <- <- <-. exists []. rewrite app_nil_r. split; [reflexivity|]. split; [|auto].
      right. cbn. split; [lia|]. split; [reflexivity|].
      destruct prev as [f|]; [|discriminate]. exists start. auto.
    + destruct start as [p|]; [|discriminate]. ib H f E1. ib H nx E2.
      apply IH in H. destruct H as (new & -> & D & NX).
      exists (f :: new). rewrite <- app_assoc. split; [reflexivity|]. split.
      * destruct D as [[L ->]|(L & -> & GL)]; [left; cbn; auto|right].
        cbn [length]. split; [lia|]. split; [reflexivity|].
        cbn [rev]. destruct (rev new) as [|x r] eqn:ER; cbn; [|exact GL].
        exact GL.
      * intros N. rewrite (NX N). apply Nat.eqb_neq in N. rewrite N in E2. congruence.
Qed.

Lemma create_loop_chain s obs path curr k : s_type s = Corridor -> forall prev frames n next fs n' next',
  create_loop s obs path curr k prev frames n next = Ok (fs, n', next') ->
  exists new, fs = frames ++ new /\ Forall proper new /\ chain new /\
    match prev, new with
    | Some f, g :: _ => proper f -> follows f g
    | None, g :: _ => f_start (sf g) = curr
    | _, [] => True
    end.
Proof.
  intros TY. induction k as [|k IH]; intros prev frames n next fs n' next' H; cbn [create_loop] in H.
  - injection H as <- <- <-. exists []. rewrite app_nil_r. repeat split; auto. destruct prev; exact I.
  - ib H start E0.
    destruct (match prev with None => false | Some _ => is_pt start (w_goal (s_world s)) end) eqn:G.
    + injection H as <- <- <-. exists []. rewrite app_nil_r. repeat split; auto. destruct prev; exact I.
    + destruct start as [p|]; [|discriminate]. ib H f E1. ib H nx E2.
      apply IH in H. destruct H as (new & -> & P & C & D).
      unfold make_frame in E1. rewrite TY in E1. apply corridor_proper in E1. destruct E1 as (Pf & St & _).
      exists (f :: new). rewrite <- app_assoc. split; [reflexivity|]. split; [constructor; assumption|].
      split.
      * cbn. destruct new as [|g new]; [exact I|]. split; [exact (D Pf)|exact C].
      * destruct prev as [f0|]; [|congruence]. intros [PL PN]. unfold follows.
        rewrite PL in E0. injection E0 as E0. congruence.
Qed.

(* ---- L-shapes ------------------------------------------------------------ *)

Lemma set_lim_kinw f l : kinw f (set_lim f l).
Proof. repeat split. Qed.

Lemma l_shape_kinw s obs f g a b : l_shape s obs f g = Ok (a, b) -> kinw f a /\ kinw g b.
Proof.
  unfold l_shape. intros H. ib H w10 E1. ib H w20 E2. ib H w2n E3. ib H r E4. destruct r as [x y].
  injection H as <- <-. split; apply set_lim_kinw.
Qed.

Lemma l_chain_kinw s obs rest : forall f fs, l_chain s obs f rest = Ok fs -> Forall2 kinw (f :: rest) fs.
Proof.
  induction rest as [|g rest IH]; intros f fs H; cbn in H.
  - injection H as <-. apply kinws_refl.
  - ib H r E. destruct r as [f' g']. ib H r E1. injection H as <-.
    apply l_shape_kinw in E. destruct E as [K1 K2]. apply IH in E1.
    constructor; [exact K1|]. inversion E1; subst. constructor; eauto using kinw_trans.
Qed.

Lemma removelast_last {A} (l : list A) d : l <> [] -> l = removelast l ++ [last l d].
Proof. apply app_removelast_last. Qed.

Lemma replace_last fs gs d a : gs <> [] -> Forall2 kinw fs gs -> kinw (last gs d) a ->
  Forall2 kinw fs (removelast gs ++ [a]).
Proof.
  intros N K KA. rewrite (app_removelast_last d N) in K.
  apply Forall2_app_inv_r in K. destruct K as (l1 & l2 & K1 & K2 & ->).
  inversion K2; subst. inversion H3; subst. apply Forall2_app; [exact K1|].
  constructor; [|constructor]. eauto using kinw_trans.
Qed.

Lemma l_frames_kinw s obs path frames n next fs next' :
  (n = 1%nat -> next <> None -> length frames = 1%nat) ->
  l_frames s obs path frames n next = Ok (fs, next') ->
  Forall2 kinw frames fs /\
  match next, next' with
  | Some (Some nf), Some (Some nf') => kinw nf nf'
  | Some (Some nf), _ => False
  | a, b => a = b
  end.
Proof.
  intros HL H. unfold l_frames in H.
  assert (same : forall x, Ok (frames, next) = Ok x -> x = (fs, next') ->
    Forall2 kinw frames fs /\
    match next, next' with
    | Some (Some nf), Some (Some nf') => kinw nf nf'
    | Some (Some nf), _ => False
    | a, b => a = b
    end).
  { intros x [= <-] [= <- <-]. split; [apply kinws_refl|]. destruct next as [[nf|]|]; auto.
    split; [apply kin_refl|reflexivity]. }
  destruct (s_type s); try (injection H as H1 H2; eapply same; [reflexivity|congruence]).
  destruct (s_lshape s); try (injection H as H1 H2; eapply same; [reflexivity|congruence]).
  clear same. destruct frames as [|f0 rest]; [discriminate|].
  assert (other : forall r, bind (l_chain s obs f0 rest) (fun fs =>
                let f := last fs f0 in
                bind (create_next_frame s obs path f) (fun nx =>
                  match nx with
                  | None => Ok (fs, next)
                  | Some nf => bind (l_shape s obs f nf) (fun '(a, _) => Ok (removelast fs ++ [a], next))
                  end)) = Ok r -> Forall2 kinw (f0 :: rest) (fst r) /\ snd r = next).
  { intros r G. ib G gs E. cbv zeta in G. ib G nx E1. apply l_chain_kinw in E.
    destruct nx as [nf|]; [|injection G as <-; auto].
    ib G r' E2. destruct r' as [a b]. injection G as <-. cbn [fst snd]. split; [|reflexivity].
    apply l_shape_kinw in E2. destruct E2 as [K _].
    apply (replace_last _ _ f0); [inversion E; discriminate|exact E|exact K]. }
  destruct (n =? 1)%nat eqn:N1.
  - destruct next as [[nf|]|].
    + ib H r E. destruct r as [a b]. injection H as <- <-. apply l_shape_kinw in E. destruct E as [Ka Kb].
      apply Nat.eqb_eq in N1. specialize (HL N1 ltac:(discriminate)). cbn in HL.
      destruct rest; [|discriminate]. split; [constructor; auto|exact Kb].
    + discriminate.
    + apply other in H. cbn in H. destruct H as [K ->]. auto.
  - apply other in H. cbn in H. destruct H as [K ->]. split; [exact K|].
    destruct next as [[nf|]|]; auto. split; [apply kin_refl|reflexivity].
Qed.

(* ---- guesses and obstacles ----------------------------------------------- *)

(* f and f' agree in everything but waypoints *)
Definition kinl (f f' : sframe) : Prop := kin f f' /\ lims f' = lims f.

Lemma start_here_kinl curr f f' : start_here curr f = Ok f' -> kinl f f'.
Proof. unfold start_here. destruct (f_waypoints (sf f)); [discriminate|]. intros [= <-]. repeat split. Qed.

Lemma guess_frames_ok s curr m : forall zero fs fs' ts,
  guess_frames s curr zero m fs = Ok (fs', ts) ->
  Forall2 kinl fs fs' /\ length ts = m /\ (m <= length fs)%nat /\
  (if zero then tl fs' = tl fs else fs' = fs).
Proof.
  induction m as [|m IH]; intros zero fs fs' ts H; cbn in H.
  - injection H as <- <-. repeat split; auto; try lia; [|destruct zero; reflexivity].
    induction fs; constructor; auto. split; [apply kin_refl|reflexivity].
  - destruct fs as [|f rest]; [discriminate|]. ib H f' E. ib H t E1. ib H r E2. destruct r as [rest' ts'].
    injection H as <- <-. apply IH in E2. destruct E2 as (K & L & M & ->).
    split; [constructor; [|exact K]|].
    + destruct zero; [eapply start_here_kinl, E|]. injection E as <-. split; [apply kin_refl|reflexivity].
    + cbn. split; [congruence|]. split; [lia|]. destruct zero; congruence.
Qed.

Lemma get_Ts_len rooms T m : forall k ts, get_Ts rooms T k m = Ok ts ->
  length ts = m /\ (m = 0%nat \/ (k + m <= length rooms)%nat).
Proof.
  induction m as [|m IH]; intros k ts H; cbn in H; [injection H as <-; auto|].
  ib H t E. ib H r E1. injection H as <-. apply IH in E1. destruct E1 as [L D]. cbn.
  unfold get_T in E. destruct (k <? length rooms)%nat eqn:B; [|discriminate]. apply Nat.ltb_lt in B.
  split; [congruence|]. right. lia.
Qed.

Lemma kinls_refl fs : Forall2 kinl fs fs.
Proof. induction fs; constructor; auto. split; [apply kin_refl|reflexivity]. Qed.

Lemma guess_all_ok s curr frames n old T fs ts : (1 <= n)%nat ->
  guess_all s curr frames n old T = Ok (fs, ts) ->
  Forall2 kinl frames fs /\ length ts = n /\ (n <= length frames)%nat /\ tl fs = tl frames.
Proof.
  intros N. unfold guess_all. destruct old as [rooms|].
  - intros H. ib H t0 E. ib H r E1. destruct r as [fs0 t1]. injection H as <- <-.
    apply guess_frames_ok in E1. destruct E1 as (K & L & M & Z).
    rewrite skipn_length in M. unfold reuse_times in E. ib E fst0 E2. ib E mid E3. injection E as <-.
    apply get_Ts_len in E3. destruct E3 as [LM _].
    assert (length fst0 = if (1 <? n)%nat then 1%nat else 0%nat) as LF.
    { destruct (1 <? n)%nat; [|injection E2 as <-; reflexivity]. ib E2 a Ea. ib E2 b Eb. injection E2 as <-.
      reflexivity. }
    split; [|split; [|split]].
    + rewrite <- (firstn_skipn (n - 1) frames) at 1. apply Forall2_app; [apply kinls_refl|exact K].
    + rewrite !app_length, LF, LM, L. destruct (1 <? n)%nat eqn:B.
      * apply Nat.ltb_lt in B. lia.
      * apply Nat.ltb_ge in B. lia.
    + lia.
    + destruct (n - 1 =? 0)%nat eqn:B.
      * apply Nat.eqb_eq in B. rewrite B in *. cbn in *. exact Z.
      * rewrite Z, firstn_skipn. reflexivity.
  - intros H. apply guess_frames_ok in H. destruct H as (K & L & M & Z). auto.
Qed.

Lemma look_ok s obs fs : forall ts fs', look s obs fs ts = Ok fs' ->
  Forall2 kinw fs fs' /\ map lims fs' = map lims fs /\ (length fs <= length ts)%nat.
Proof.
  induction fs as [|f fs IH]; intros ts fs' H; cbn in H.
  - injection H as <-. repeat split; auto. cbn. lia.
  - destruct ts as [|t ts]; [discriminate|]. ib H r E. injection H as <-. apply IH in E.
    destruct E as (K & L & M). split; [constructor; [repeat split|exact K]|].
    split; [|cbn; lia]. cbn [map]. rewrite L. reflexivity.
Qed.

Lemma compare_ok s obs fs : forall ts new fs' b, compare s obs fs ts new = Ok (fs', b) ->
  Forall2 kinw fs fs' /\ map lims fs' = map lims fs /\ (length fs <= length ts)%nat.
Proof.
  induction fs as [|f fs IH]; intros ts new fs' b H; cbn in H.
  - injection H as <- <-. repeat split; auto. cbn. lia.
  - destruct ts as [|t ts]; [discriminate|]. ib H r E. destruct r as [r b']. injection H as <- <-. apply IH in E.
    destruct E as (K & L & M). split.
    + constructor; [|exact K]. destruct (negb _); [repeat split|split; [apply kin_refl|reflexivity]].
    + split; [|cbn; lia]. cbn [map]. rewrite L. f_equal. destruct (negb _); reflexivity.
Qed.

Lemma generate_ok frames n rooms : generate_problem frames n = Ok rooms ->
  (n <= length frames)%nat /\ rooms = map room_of (firstn n frames).
Proof.
  unfold generate_problem. destruct (n <=? length frames)%nat eqn:B; [|discriminate].
  intros [= <-]. apply Nat.leb_le in B. auto.
Qed.

Lemma set_times_ok T m : forall ts k ts', set_times ts k m T = Ok ts' ->
  length ts' = length ts /\ (m <= length ts)%nat.
Proof.
  induction m as [|m IH]; intros ts k ts' H; cbn [set_times] in H;
    [assert (ts' = ts) as -> by congruence; split; [reflexivity|lia]|].
  destruct ts as [|t ts]; [discriminate|]. ib H r E. injection H as <-. apply IH in E. cbn. lia.
Qed.
