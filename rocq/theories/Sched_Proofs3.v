From Coq Require Import QArith Qabs List Bool Arith Lia Lqa.
From Verif Require Import Frame_Model Frame_Spec Frame_Proofs Frame_Proofs4 Sched_Model Sched_Spec Sched_Proofs Sched_Proofs2.
Import ListNotations.
Open Scope Q_scope.

(* ---- the chain of frames ------------------------------------------------- *)

Lemma kin_follows_l a a' b : kin a a' -> follows a b -> follows a' b.
Proof. intros (E & _ & _) F. unfold follows in *. congruence. Qed.
Lemma kin_follows_r a b b' : kin b b' -> follows a b -> follows a b'.
Proof. intros (_ & E & _) F. unfold follows in *. congruence. Qed.
Lemma kin_ends a a' p : kin a a' -> ends_in a p -> ends_in a' p.
Proof. intros (E & _ & _) (e & F & G). exists e. split; [congruence|exact G]. Qed.

Lemma goal_last_ends s f : proper f -> goal_last s f -> ends_in f (w_goal (s_world s)).
Proof.
  intros [P N] (w & L & G). rewrite P in L. injection L as <-. unfold is_pt in G.
  destruct (f_endpoint (sf f)) as [e|] eqn:E; [|discriminate]. exists e. split; [exact E|apply pt_eqb_iff, G].
Qed.
Lemma ends_goal_last s f : proper f -> ends_in f (w_goal (s_world s)) -> goal_last s f.
Proof.
  intros [P N] (e & E & G). exists (Some e). split; [congruence|]. cbn. apply pt_eqb_iff, G.
Qed.

Definition last_ends (s : scfg) (fs : list sframe) : Prop :=
  exists f, hd_error (rev fs) = Some f /\ ends_in f (w_goal (s_world s)).
Lemma last_ends_kin s a b : Forall2 kin a b -> last_ends s a -> last_ends s b.
Proof.
  intros K (f & E & G). destruct a as [|x a] using rev_ind; [discriminate|]. clear IHa.
  rewrite rev_app_distr in E. injection E as ->. apply Forall2_app_inv_l in K.
  destruct K as (l1 & l2 & K1 & K2 & ->). inversion K2; subst. inversion H3; subst.
  exists y. rewrite rev_app_distr. split; [reflexivity|]. eapply kin_ends, G. exact H1.
Qed.

Record cinv (s : scfg) (N : nat) (g : sched) : Prop := {
  c_chain : chain (g_frames g);
  c_proper : Forall proper (tl (g_frames g));
  c_next : match g_next g with
           | Some (Some nf) => proper nf /\ forall f, In f (g_frames g) -> follows f nf
           | Some None => last_ends s (g_frames g)
           | None => True
           end;
  c_short : (g_n g < N)%nat -> last_ends s (g_frames g) }.

Lemma chain_tl fs : chain fs -> chain (tl fs).
Proof. destruct fs as [|a [|b r]]; cbn; tauto. Qed.
Lemma chain_app fs new : chain fs -> chain new ->
  (forall f h, hd_error (rev fs) = Some f -> hd_error new = Some h -> follows f h) -> chain (fs ++ new).
Proof.
  induction fs as [|a fs IH]; intros C D F; [exact D|].
  destruct fs as [|b fs].
  - cbn. destruct new as [|h new]; [exact I|]. split; [apply F; reflexivity|exact D].
  - destruct C as [C1 C2]. cbn [app]. split; [exact C1|]. apply IH; auto.
    intros f h E. apply F. cbn [rev] in *. destruct (rev fs ++ [b]) as [|x r] eqn:R.
    + discriminate.
    + exact E.
Qed.

Lemma Forall_tl {A} (P : A -> Prop) l : Forall P l -> Forall P (tl l).
Proof. destruct 1; cbn; auto. Qed.
Lemma hd_rev_in {A} (l : list A) x : hd_error (rev l) = Some x -> In x l.
Proof. intros H. apply in_rev. destruct (rev l); [discriminate|]. injection H as ->. now left. Qed.

Lemma reinit_cinv s obs T g g' : s_type s = Corridor -> fresh g -> reinitialize s obs T g = Ok g' ->
  cinv s (g_n g) g' /\ (exists f0, hd_error (g_frames g') = Some f0 /\ f_start (sf f0) = g_curr g).
Proof.
  intros TY [F1 F2] H. apply reinit_finish in H.
  destruct H as (fs & n & next & fs' & ts & tg & rooms & C & F & ->). rewrite F1, F2 in C.
  apply first_frames in C. destruct C as (fs0 & next0 & CL & LF & K0 & NK & D & NX).
  pose proof (create_loop_chain _ _ _ _ _ TY _ _ _ _ _ _ _ CL) as (new & -> & P & CH & ST). cbn [app] in *.
  apply finish_ok in F.
  2:{ intros ->. destruct D as [[X Y]|(X & Y & Z & _)]; [|lia]. destruct fs; [reflexivity|cbn in X; lia]. }
  destruct F as (N & L & L' & LT & -> & LM & K & KW).
  assert (K1 : Forall2 kin new fs') by (eapply kins_trans; [apply kinws_kins, K0|exact K]).
  split.
  - constructor; cbn.
    + eapply chain_kin; [exact K1|exact CH].
    + eapply kinws_proper; [exact KW|]. apply Forall_tl. eapply kinws_proper; [exact K0|exact P].
    + destruct next as [nx|]; [|exact I].
      assert (g_n g = 1%nat) as N1 by (apply NX; discriminate). rewrite N1 in *.
      destruct D as [[D1 ->]|(D1 & D2 & D3 & _)]; [|lia].
      destruct new as [|f [|? ?]]; try (apply kinws_len in K0; cbn in K0; lia).
      inversion K1 as [|? f' ? ? Kf Kn]; subst. inversion Kn; subst.
      cbn in CL. destruct (make_frame s obs (g_curr g) _) as [ff|] eqn:MF; [|discriminate].
      cbn [bind] in CL. ib CL nx0 E. cbn in CL. injection CL as -> <-. ib E x E1. injection E as <-.
      apply next_frame_corridor in E1; [|exact TY]. unfold next_kin in NK.
      destruct x as [nf|].
      * destruct nx as [nf'|]; [|contradiction]. destruct E1 as [Fo Pn]. split; [eapply kinw_proper, Pn; exact NK|].
        intros q [<-|[]]. eapply kin_follows_l; [exact Kf|]. eapply kin_follows_r; [exact (proj1 NK)|exact Fo].
      * injection NK as <-. exists f'. split; [reflexivity|]. eapply kin_ends; [exact Kf|exact E1].
    + intros LTN. destruct D as [[D1 ->]|(D1 & D2 & D3 & f & HF & GL)]; [lia|].
      eapply last_ends_kin; [exact K1|]. exists f. split; [exact HF|]. apply goal_last_ends; [|exact GL].
      rewrite Forall_forall in P. apply P, hd_rev_in, HF.
  - destruct new as [|f new]; [apply kins_len in K1; cbn in K1; lia|].
    inversion K1 as [|? f' ? ? Kf Kn]; subst. exists f'. cbn. split; [reflexivity|].
    destruct Kf as (_ & -> & _). exact ST.
Qed.

Lemma solve_cinv s N curr obs T g g' b : s_type s = Corridor -> inv s N g -> cinv s N g ->
  solve s curr obs T g = Ok (g', b) -> cinv s N g'.
Proof.
  intros TY I CI H. pose proof I as [L B LT RM NX FX]. pose proof CI as [CH P NE SH]. apply solve_cases in H.
  destruct H as [(C & fs & ts & TS & CM & D)|(C & -> & fs & n & next & fs' & ts & tg & rooms & M & F & ->)].
  - apply compare_ok in CM. destruct CM as (K & LM & LE). pose proof (kinws_kins _ _ K) as K1.
    assert (g_frames g' = fs /\ g_n g' = g_n g /\ g_next g' = g_next g) as (E1 & E2 & E3).
    { destruct b; [destruct D as (rooms & _ & ->)|subst g']; repeat split. }
    constructor; rewrite ?E1, ?E2, ?E3.
    + eapply chain_kin; eauto.
    + eapply kinws_proper; [apply kinws_tl, K|exact P].
    + destruct (g_next g) as [[nf|]|]; [|eapply last_ends_kin; eauto|exact Logic.I].
      destruct NE as [Pn Fo]. split; [exact Pn|]. clear - K1 Fo. induction K1; intros f HI; [destruct HI|].
      destruct HI as [<-|HI]; [eapply kin_follows_l; [eassumption|apply Fo; now left]|].
      apply IHK1; [|exact HI]. intros q Q. apply Fo. now right.
    + intros X. eapply last_ends_kin; eauto.
  - pose proof (move_on_ok _ _ _ _ _ _ _ _ _ I C M) as D.
    assert (n0 : n = 0%nat -> fs = []).
    { intros ->. destruct D as [(_ & X & _)|(N2 & _ & _ & new & _ & [[_ X]|(_ & X & _)] & _)]; lia. }
    apply finish_ok in F; [|exact n0]. destruct F as (N1 & L1 & L2 & L3 & -> & LM & K & KW).
    destruct D as [(G1 & -> & nf & f & GN & -> & KN & new & new' & CN & -> & NN)|
                   (N2 & GN & -> & new & K0 & D & fl & n' & HL & CL)].
    + assert (N = 1%nat) as NE1 by (apply NX; rewrite GN; discriminate).
      inversion K as [|? f' ? ? Kf Kn]; subst. inversion Kn; subst.
      assert (Kf' : kin nf f') by (eapply kin_trans; [exact (proj1 KN)|exact Kf]).
      constructor; cbn.
      * exact Logic.I.
      * constructor.
      * apply next_frame_corridor in CN; [|exact TY]. destruct new as [a|], new' as [a'|]; try contradiction.
        -- destruct CN as [Fo Pn]. split; [eapply kinw_proper, Pn; exact NN|]. intros q [<-|[]].
           eapply kin_follows_l; [exact Kf'|]. eapply kin_follows_r; [exact (proj1 NN)|exact Fo].
        -- exists f'. split; [reflexivity|]. eapply kin_ends; [exact Kf'|exact CN].
      * lia.
    + assert (K1 : Forall2 kin (tl (g_frames g) ++ new) fs') by (eapply kins_trans; [apply kinws_kins, K0|exact K]).
      pose proof (create_loop_chain _ _ _ _ _ TY _ _ _ _ _ _ _ CL) as (new0 & E0 & P0 & CH0 & ST0).
      apply app_inv_head in E0. subst new0.
      assert (Pfl : proper fl) by (rewrite Forall_forall in P; apply P, hd_rev_in, HL).
      constructor; cbn.
      * eapply chain_kin; [exact K1|]. apply chain_app; [apply chain_tl, CH|exact CH0|].
        intros f h Ef Eh. rewrite HL in Ef. injection Ef as <-. destruct new; [discriminate|]. injection Eh as ->.
        apply ST0, Pfl.
      * eapply kinws_proper; [exact KW|]. apply Forall_tl. eapply kinws_proper; [exact K0|].
        apply Forall_app. auto.
      * exact Logic.I.
      * intros X. destruct D as [[D1 ->]|(-> & D2 & f & HF & GL)].
        -- exfalso. specialize (SH X). destruct SH as (f & HF & EN).
           assert (f = fl).
           { destruct (g_frames g) as [|a [|c r]]; cbn [tl] in HL; [discriminate|discriminate|].
             change (rev (a :: c :: r)) with (rev (c :: r) ++ [a]) in HF.
             destruct (rev (c :: r)) as [|z zs] eqn:Z; [discriminate|]. cbn in HF, HL. congruence. }
           subst f. apply ends_goal_last in EN; [|exact Pfl]. destruct EN as (w & E & G).
           cbn in CL. rewrite E in CL. cbn [bind] in CL. rewrite G in CL. injection CL as E2 _.
           rewrite <- (app_nil_r (tl (g_frames g))) in E2 at 1. apply app_inv_head in E2. subst new. discriminate.
        -- eapply last_ends_kin; [exact K1|]. rewrite app_nil_r. exists f. split; [exact HF|].
           apply goal_last_ends; [|exact GL]. rewrite Forall_forall in P. apply P, hd_rev_in, HF.
Qed.

Lemma solves_cinv s N ins : s_type s = Corridor -> forall g g', inv s N g -> cinv s N g ->
  solves s ins g = Ok g' -> cinv s N g'.
Proof.
  intros TY. induction ins as [|i ins IH]; intros g g' I CI H; cbn in H; [injection H as <-; exact CI|].
  ib H r E. destruct r as [g1 b]. eapply IH; [eapply solve_inv, E; exact I|eapply solve_cinv, E; eauto|exact H].
Qed.

Lemma execute_cinv w o start ins s g : o_ftype o = Some Corridor -> execute w (Some o) start ins = Ok (s, g) ->
  cinv s (opt (o_nframes o) 1%nat) g.
Proof.
  intros TY H. apply execute_cases in H. destruct H as (g0 & g1 & A & B & C).
  apply init_fresh in A. destruct A as (o' & [= <-] & _ & TS & _ & _ & F & N & _ & _ & FX).
  rewrite TY in TS. cbn in TS. rewrite <- N. eapply solves_cinv; [exact TS| |eapply reinit_cinv, B; auto|exact C].
  eapply reinit_inv; [exact F| |exact B].
  intros X. specialize (FX X). destruct (g_n g0) as [|[|k]] eqn:E; [|reflexivity|lia].
  exfalso. eapply reinit_n0; [exact F|exact E|exact B].
Qed.

Lemma frames_chained w o start ins s g : o_ftype o = Some Corridor -> execute w (Some o) start ins = Ok (s, g) ->
  chain (g_frames g) /\
  (forall nf f, g_next g = Some (Some nf) -> In f (g_frames g) -> follows f nf).
Proof.
  intros TY H. apply execute_cinv in H; [|exact TY]. destruct H as [C _ NE _]. split; [exact C|].
  intros nf f E. rewrite E in NE. apply NE.
Qed.

Lemma world_init w o curr s g : sched_init w o curr = Ok (s, g) -> s_world s = w.
Proof. intros H. apply init_fresh in H. destruct H as (o' & _ & E & _). exact E. Qed.
Lemma world_execute w o start ins s g : execute w o start ins = Ok (s, g) -> s_world s = w.
Proof. intros H. apply execute_cases in H. destruct H as (g0 & g1 & A & _). eapply world_init, A. Qed.

(* fewer frames than asked for only when the last one ends in the goal *)
Lemma short_at_goal w o start ins s g : o_ftype o = Some Corridor -> execute w (Some o) start ins = Ok (s, g) ->
  (g_n g < opt (o_nframes o) 1%nat)%nat \/ g_next g = Some None ->
  exists fs f, g_frames g = fs ++ [f] /\ ends_in f (w_goal w).
Proof.
  intros TY H D. pose proof (world_execute _ _ _ _ _ _ H) as W. apply execute_cinv in H; [|exact TY].
  destruct H as [_ _ NE SH].
  assert (last_ends s (g_frames g)) as (f & HF & E).
  { destruct D as [D|D]; [auto|]. rewrite D in NE. exact NE. }
  rewrite W in E. destruct (g_frames g) as [|x l] using rev_ind; [discriminate|].
  rewrite rev_app_distr in HF. injection HF as ->. eauto.
Qed.

Lemma first_start w o start s g : o_ftype o = Some Corridor -> execute w (Some o) start [] = Ok (s, g) ->
  exists f fs, g_frames g = f :: fs /\ f_start (sf f) = i_curr start.
Proof.
  intros TY H. apply execute_cases in H. destruct H as (g0 & g1 & A & B & C). cbn in C. injection C as ->.
  apply init_fresh in A. destruct A as (o' & [= <-] & _ & TS & _ & _ & F & N & CU & _ & FX).
  rewrite TY in TS. apply reinit_cinv in B; [|exact TS|exact F]. destruct B as [_ (f & E & S)].
  destruct (g_frames g) as [|x l]; [discriminate|]. injection E as ->. exists f, l. split; [reflexivity|congruence].
Qed.

(* ---- when frames change -------------------------------------------------- *)

Lemma deep_iff l d p : point_in_frame l p d = true <-> deep l d p.
Proof. unfold point_in_frame, deep. qb. lra. Qed.

Lemma l_off s obs path frames n next : s_lshape s = false \/ s_type s <> Corridor ->
  l_frames s obs path frames n next = Ok (frames, next).
Proof. intros D. unfold l_frames. destruct (s_type s); try reflexivity. destruct (s_lshape s); [|reflexivity].
  destruct D; congruence. Qed.

(* without L-shapes *)
Lemma move_on_plain s obs path curr g N fs n next : s_lshape s = false -> inv s N g ->
  check_frames s curr (g_frames g) (g_n g) (g_next g) = Ok false ->
  move_on s obs path curr (g_frames g) (g_n g) (g_next g) (next_arg (g_n g) (g_next g)) = Ok (fs, n, next) ->
  (exists f nf, g_frames g = [f] /\ g_next g = Some (Some nf) /\ fs = [nf] /\ deep (lims nf) (w_veh (s_world s)) curr) \/
  (exists f0 f1 rest new, g_frames g = f0 :: f1 :: rest /\ fs = f1 :: rest ++ new /\ (length new <= 1)%nat /\
     deep (lims f1) (w_veh (s_world s)) curr).
Proof.
  intros LS I C H. pose proof (check_false _ _ _ _ I C) as D. unfold move_on, next_arg in H.
  destruct D as [(N1 & f & nf & F & G & P)|(N2 & G & f0 & f1 & rest & F & P)]; apply deep_iff in P.
  - left. rewrite N1, G, F in H. cbn [Nat.eqb] in H. ib H new E. rewrite LS in H.
    exists f, nf. repeat split; auto; try apply P. destruct (s_type s), new; congruence.
  - right. destruct (g_n g =? 1)%nat eqn:N1; [apply Nat.eqb_eq in N1; lia|].
    rewrite G, F in H. unfold create_frames in H. rewrite N1 in H. cbv zeta in H.
    destruct (rev (f1 :: rest)) as [|fl r] eqn:ER.
    { apply (f_equal (@length _)) in ER. rewrite rev_length in ER. discriminate. }
    ib H x E. destruct x as [[fs0 n0] next0]. ib H y E1. destruct y as [fs1 next1]. injection H as <- <- <-.
    rewrite l_off in E1 by (left; exact LS). injection E1 as <- <-.
    pose proof (create_loop_len _ _ _ _ _ _ _ _ _ _ _ _ E) as (new & -> & D & NX).
    exists f0, f1, rest, new. repeat split; auto; try apply P. lia.
Qed.

(* frames change exactly when cnt is increased; then the vehicle is in the new
   first frame, which was the second one, and the frames between stay *)
Lemma switch_inside s N curr obs T g g' b : s_lshape s = false -> inv s N g ->
  solve s curr obs T g = Ok (g', b) -> g_cnt g' <> g_cnt g ->
  g_cnt g' = S (g_cnt g) /\ b = true /\
  exists f0 ahead new, g_frames g = f0 :: ahead /\ (length new <= 1)%nat /\
    (exists l ls, map lims (g_frames g') = l :: ls /\ deep l (w_veh (s_world s)) curr) /\
    ((ahead <> [] /\ map lims (g_frames g') = map lims ahead ++ new) \/
     (ahead = [] /\ exists nf, g_next g = Some (Some nf) /\ map lims (g_frames g') = [lims nf])).
Proof.
  intros LS I H CN. pose proof I as [L B LT RM NX FX]. apply solve_cases in H.
  destruct H as [(C & fs & ts & TS & CM & D)|(C & -> & fs & n & next & fs' & ts & tg & rooms & M & F & ->)].
  - exfalso. apply CN. destruct b; [destruct D as (rooms & _ & ->)|subst g']; reflexivity.
  - split; [reflexivity|]. split; [reflexivity|].
    pose proof (move_on_ok _ _ _ _ _ _ _ _ _ I C M) as D.
    assert (n0 : n = 0%nat -> fs = []).
    { intros ->. destruct D as [(_ & X & _)|(N2 & _ & _ & new & _ & [[_ X]|(_ & X & _)] & _)]; lia. }
    apply finish_ok in F; [|exact n0]. destruct F as (N1 & L1 & L2 & L3 & -> & LM & K & KW). cbn [g_frames].
    rewrite LM. destruct (move_on_plain _ _ _ _ _ _ _ _ _ LS I C M)
      as [(f & nf & E & G & -> & P)|(f0 & f1 & rest & new & E & -> & LN & P)].
    + exists f, [], []. split; [exact E|]. split; [cbn; lia|]. split; [exists (lims nf), []; auto|].
      right. split; [reflexivity|]. exists nf. auto.
    + exists f0, (f1 :: rest), (map lims new). split; [exact E|]. split; [rewrite map_length; exact LN|].
      split; [exists (lims f1), (map lims (rest ++ new)); auto|]. left. split; [discriminate|].
      change (f1 :: rest ++ new) with ((f1 :: rest) ++ new). apply map_app.
Qed.

(* otherwise the frames stay what they are *)
Lemma no_switch s curr obs T g g' b : solve s curr obs T g = Ok (g', b) -> g_cnt g' = g_cnt g ->
  map lims (g_frames g') = map lims (g_frames g) /\ g_n g' = g_n g /\ g_next g' = g_next g /\
  g_target g' = g_target g.
Proof.
  intros H CN. apply solve_cases in H.
  destruct H as [(C & fs & ts & TS & CM & D)|(C & -> & fs & n & next & fs' & ts & tg & rooms & M & F & ->)].
  - apply compare_ok in CM. destruct CM as (K & LM & LE).
    destruct b; [destruct D as (rooms & _ & ->)|subst g']; repeat split; assumption.
  - cbn in CN. lia.
Qed.

(* no change while the goal is in the first frame, nor while the vehicle is not
   in the next one *)
Lemma switch_needed s N curr obs T g g' b : inv s N g -> solve s curr obs T g = Ok (g', b) -> g_cnt g' <> g_cnt g ->
  exists f0 ahead, g_frames g = f0 :: ahead /\ ~ interior (lims f0) (w_goal (s_world s)) /\
    exists f1, (hd_error ahead = Some f1 \/ g_next g = Some (Some f1)) /\ deep (lims f1) (w_veh (s_world s)) curr.
Proof.
  intros I H CN. apply solve_cases in H.
  destruct H as [(C & fs & ts & TS & CM & D)|(C & _)].
  - exfalso. apply CN. destruct b; [destruct D as (rooms & _ & ->)|subst g']; reflexivity.
  - pose proof (check_false _ _ _ _ I C) as D. unfold check_frames in C.
    destruct (g_frames g) as [|f0 ahead] eqn:F; [discriminate|]. exists f0, ahead. split; [reflexivity|].
    destruct (point_in_frame (lims f0) _ 0) eqn:G; [discriminate|]. split.
    + intros X. apply in_frame_iff in X. congruence.
    + destruct D as [(_ & f & nf & _ & E & P)|(_ & _ & a & f1 & r & E & P)]; apply deep_iff in P.
      * exists nf. auto.
      * exists f1. injection E as -> ->. auto.
Qed.
