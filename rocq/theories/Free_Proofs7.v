(** Free end time: the end of run, the objective, termination. *)
From Coq Require Import String Reals QArith Qreals ZArith Lra Lia List Arith Bool.
From Coq Require Lqa.
From Verif Require Import Spline_Model Spline_Spec Splop_Spec Vehicle_Model Vehicle_Spec Vehicle_Proofs Vehicle_Proofs2 Quad_Proofs
  Wheel_Proofs Lift_Model Lift_Spec Lift_Proofs Lift_Proofs2 Lift_Proofs3 Lift_Proofs4
  Loop_Model Loop_Spec Loop_Proofs Loop_Proofs2 Loop_Proofs3 Loop_Proofs4 Loop_Proofs5 Loop_Proofs6 Loop_Proofs7 Loop_Proofs8 Loop_Proofs9 Loop_Proofs10 Loop_Proofs11
  Free_Model Free_Spec Free_Proofs Free_Proofs2 Free_Proofs3 Free_Proofs4 Free_Proofs5 Free_Proofs6.
From Verif Require Timing_Model Timing_Proofs Timing_Proofs2 Geom_Spec Obst_Model Obst_Spec.
Import ListNotations.
Local Open Scope R_scope.
Local Notation length := List.length.

Lemma found_prefix : forall P g a b w, all_found P g (a ++ b) w -> all_found P g a w.
Proof.
  intros P g a. induction a as [|f a IH]; intros b w H; [exact Logic.I|]. destruct H as [A B]. split; [exact A|].
  intros w2 E. apply (IH b), B, E.
Qed.
Lemma found_last : forall P g a f w w' w1, all_found P g (a ++ [f]) w -> f_passes g a w = Some w' -> prepared g w' = Some w1 -> P w1 f.
Proof. intros P g a f w w' w1 H E PR. apply found_snoc in H. destruct H as [_ H]. apply (H w' E w1 PR). Qed.
Lemma passes_after : forall g fs f w, f_passes g (fs ++ [f]) w =
  match after g fs f w with None => None | Some w' => Some (advance g w') end.
Proof. intros g fs f w. rewrite f_passes_snoc. unfold after. destruct (f_passes g fs w); reflexivity. Qed.
Lemma after_cons : forall g f0 fs f w w0, f_update g f0 w = Some w0 -> after g (f0 :: fs) f w = after g fs f (advance g w0).
Proof. intros g f0 fs f w w0 E. unfold after. cbn [f_passes]. unfold f_pass. rewrite E. reflexivity. Qed.

(** ** the structure of run *)
Lemma run_spec : forall g stol goal fs w acc w' J k, f_run g stol goal fs w acc = Some (w', J, k) ->
  exists pre f post, fs = pre ++ f :: post /\ length pre = k /\ Forall (long g) pre /\
    after g pre f w = Some w' /\ f_stop g stol goal f w' = true /\
    (forall a b c wj, pre = a ++ b :: c -> after g a b w = Some wj -> stop_criterium stol goal wj = false) /\
    (skipped g f = false -> J = (now w' + f_time g f - start_time w')%Q) /\
    (skipped g f = true -> pre = [] -> J = acc) /\
    (skipped g f = true -> forall a b, pre = a ++ [b] -> skipped g b = false ->
       exists wj, after g a b w = Some wj /\ J = (now wj + f_time g b - start_time wj)%Q).
Proof.
  intros g stol goal fs. induction fs as [|f fs IH]; intros w acc w' J k H; cbn [f_run] in H; [discriminate|].
  destruct (f_update g f w) as [w0|] eqn:U; [|discriminate]. cbv zeta in H.
  destruct (f_stop g stol goal f w0) eqn:SP.
  - injection H as <- <- <-. exists [], f, fs. split; [reflexivity|]. split; [reflexivity|]. split; [constructor|].
    split; [unfold after; cbn; exact U|]. split; [exact SP|]. split; [intros [|? ?] b c wj E; discriminate|].
    unfold f_objective. split; [intros ->; reflexivity|]. split; [intros -> _; reflexivity|]. intros _ [|? ?] b E; discriminate.
  - destruct (f_run g stol goal fs (advance g w0) (f_objective g f w0 acc)) as [[[w2 j] q]|] eqn:R; [|discriminate].
    injection H as <- <- <-. destruct (IH _ _ _ _ _ R) as (pre & f' & post & E1 & E2 & E3 & E4 & E5 & E6 & E7 & E8 & E9).
    assert (LO : long g f /\ stop_criterium stol goal w0 = false).
    { unfold f_stop in SP. destruct (Grid_Model.Qltb (motion f) (upd g)) eqn:Q; [discriminate|]. split; [|exact SP].
      unfold long. destruct (Qlt_le_dec (motion f) (upd g)) as [X|X]; [|exact X]. rewrite (ltb_true _ _ X) in Q. discriminate. }
    destruct LO as [LO NS].
    exists (f :: pre), f', post. split; [cbn; rewrite E1; reflexivity|]. split; [cbn; rewrite E2; reflexivity|]. split; [constructor; assumption|].
    split; [rewrite (after_cons g f pre f' w w0 U); exact E4|]. split; [exact E5|]. split; [|split; [exact E7|split]].
    + intros [|a0 a] b c wj E A; cbn in E; injection E as <- E.
      * unfold after in A. cbn in A. rewrite U in A. injection A as <-. exact NS.
      * rewrite (after_cons g f a b w w0 U) in A. apply (E6 a b c wj E A).
    + intros _ X. discriminate.
    + intros SK a b E NB. destruct a as [|a0 a]; cbn in E; injection E as <- E.
      * subst pre. exists w0. split; [unfold after; cbn; exact U|]. specialize (E8 SK eq_refl). rewrite E8. unfold f_objective. rewrite NB. reflexivity.
      * destruct (E9 SK a b E NB) as (wj & X & Y). exists wj. split; [|exact Y]. rewrite (after_cons g f a b w w0 U). exact X.
Qed.

(** run stops if no update raises and some motion is short *)
Lemma run_reaches : forall g stol goal fs w acc,
  (forall pre f post, fs = pre ++ f :: post -> Forall (long g) pre -> exists w', after g pre f w = Some w') ->
  (exists f, In f fs /\ (motion f < upd g)%Q) -> exists r, f_run g stol goal fs w acc = Some r.
Proof.
  intros g stol goal fs. induction fs as [|f fs IH]; intros w acc H (f0 & Hin & Hs); [destruct Hin|]. cbn [f_run].
  destruct (H [] f fs eq_refl (Forall_nil _)) as (w0 & U). unfold after in U. cbn in U. rewrite U. cbv zeta.
  destruct (f_stop g stol goal f w0) eqn:SP; [eexists; reflexivity|].
  assert (LO : long g f).
  { unfold f_stop in SP. destruct (Grid_Model.Qltb (motion f) (upd g)) eqn:Q; [discriminate|].
    unfold long. destruct (Qlt_le_dec (motion f) (upd g)) as [X|X]; [|exact X]. rewrite (ltb_true _ _ X) in Q. discriminate. }
  destruct (IH (advance g w0) (f_objective g f w0 acc)) as ([[w2 j] q] & E).
  - intros pre f' post E FL. destruct (H (f :: pre) f' post ltac:(cbn; rewrite E; reflexivity) ltac:(constructor; assumption)) as (w' & A).
    exists w'. rewrite <- A. symmetry. apply after_cons, U.
  - exists f0. split; [|exact Hs]. destruct Hin as [->|Hin]; [|exact Hin]. unfold long in LO. exfalso. Lqa.lra.
  - rewrite E. eexists. reflexivity.
Qed.

(** ** an update that is left out *)
Lemma skip_after : forall g m (P : world -> fanswer -> Prop) s0 i0 obs pre f, paced g m -> consistent g -> length s0 = dim g -> length i0 = dim g ->
  (forall w f, long g f -> P w f -> f_starts g w f) -> Forall (long g) pre -> Forall (proper g) pre -> pre <> [] ->
  all_found P g pre (world0 s0 i0 obs) -> skipped g f = true ->
  exists w w1 w', f_passes g pre (world0 s0 i0 obs) = Some w /\ prepared g w = Some w1 /\ after g pre f (world0 s0 i0 obs) = Some w' /\
    log w' = log w /\ (now w' == inject_Z (Z.of_nat (length pre)) * upd g)%Q /\ (start_time w' == 0)%Q /\
    exists l, log w = Some l /\ p_state w1 = c_state (last l no_column) /\ p_input w1 = c_input (last l no_column).
Proof.
  intros g m P s0 i0 obs pre f ST CO LS LI PS FL FA NE AA SK.
  destruct (free_log g m P s0 i0 obs pre ST CO LS LI PS FL FA AA) as (w & w1 & E & PR & RD & _).
  destruct RD as (NW & SW & IT & [(Z & _)|(l & pl & L1 & L2 & L3 & L4 & L5 & _)]); [contradiction|].
  assert (LW : log w1 = log w).
  { unfold prepared in PR. cbv zeta in PR. destruct (predict _ _ _ _ _) as [[s i]|]; [|discriminate]. injection PR as <-. reflexivity. }
  exists w, w1. eexists. split; [exact E|]. split; [exact PR|]. split; [unfold after; rewrite E; apply (f_update_skip g f w w1 pl SK PR L2)|].
  cbn [log now start_time]. split; [exact LW|]. split; [exact NW|]. split; [exact SW|]. exists l. rewrite <- LW. rewrite L4, L5. auto.
Qed.

Theorem free_skip : forall g m nd tol b goal vchk rv sd s0 i0 obs fs f2 f p v, paced g m -> consistent g -> 0 <= tol -> dim g = 2%nat ->
  length s0 = dim g -> length i0 = dim g -> Forall (long g) (fs ++ [f2]) -> Forall (proper g) (fs ++ [f2]) ->
  (0 < motion f)%Q -> (motion f < ts g)%Q -> proper g f ->
  all_found (f_accepted g nd tol (holonomic_constraints "norm_inf" b) goal vchk rv sd) g ((fs ++ [f2]) ++ [f]) (world0 s0 i0 obs) ->
  f_moves g m fs f2 s0 i0 obs p v ->
  let L := holonomic_limits b in let E := end_time g m fs f2 in let T := Q2R (motion f) in
  exists w w2, after g (fs ++ [f2]) f (world0 s0 i0 obs) = Some w /\ after g fs f2 (world0 s0 i0 obs) = Some w2 /\ log w = log w2 /\
  forall i, (i < 2)%nat ->
    two (vxmin L) (vymin L) i * T <= nth i goal 0 - p i E <= two (vxmax L) (vymax L) i * T /\
    (nd = false -> two (axmin L) (aymin L) i * T <= - v i E <= two (axmax L) (aymax L) i * T).
Proof.
  intros g m nd tol b goal vchk rv sd s0 i0 obs fs f2 f p v ST CO Tt D LS LI FL FA T0 T1 PF AA MV L E T.
  pose proof (Q2R_pos _ T0) as HT. fold T in HT.
  set (P := f_accepted g nd tol (holonomic_constraints "norm_inf" b) goal vchk rv sd) in *.
  assert (PS : forall w f, long g f -> P w f /\ proper g f -> f_starts g w f).
  { intros w f' LO [X Y]. apply (accepted_f_starts g m nd tol _ goal vchk rv sd w f' ST ltac:(lia) (timely_pos g m f' ST (long_timely g m f' ST LO)) Y X). }
  assert (AA' : all_found (fun w f => P w f /\ proper g f) g (fs ++ [f2]) (world0 s0 i0 obs)).
  { pose proof (found_prefix _ _ _ _ _ AA) as AP. clear -AP FA. revert FA AP. generalize (fs ++ [f2]) (world0 s0 i0 obs).
    intros l. induction l as [|c l IH]; intros w0 FA AP; [exact Logic.I|].
    cbn [all_found] in *. destruct AP as [A B]. inversion FA as [|? ? F1 F2]; subst. split; [intros w1 H; split; [apply A, H|exact F1]|].
    intros w2 H. apply IH; [exact F2|apply B, H]. }
  assert (SK : skipped g f = true) by (apply ltb_true; exact T1).
  destruct (skip_after g m _ s0 i0 obs (fs ++ [f2]) f ST CO LS LI PS FL FA ltac:(destruct fs; discriminate) AA' SK)
    as (w & w1 & w' & E1 & E2 & E3 & E4 & _ & _ & l & L1 & L2 & L3).
  rewrite passes_after in E1. destruct (after g fs f2 (world0 s0 i0 obs)) as [w2|] eqn:A2; [|discriminate].
  injection E1 as <-. cbn [advance log] in E4, L1.
  exists w', w2. split; [exact E3|]. split; [reflexivity|]. split; [exact E4|]. intros i Hi.
  assert (AC : P w1 f).
  { apply (found_last P g (fs ++ [f2]) f (world0 s0 i0 obs) (advance g w2) w1 AA); [rewrite passes_after, A2; reflexivity|exact E2]. }
  destruct MV as (w3 & l' & M1 & M2 & M3 & M4 & _). rewrite A2 in M1. injection M1 as <-. rewrite L1 in M2. injection M2 as <-.
  assert (NE : l <> []) by (intros ->; cbn in M3; lia).
  destruct (last_recorded g p v l M4 NE) as [S1 S2].
  assert (LE : INR (length l - 1) * Q2R (ts g) = E).
  { rewrite M3. replace (length fs * m + count g m f2 + 1 - 1)%nat with (length fs * m + count g m f2)%nat by lia.
    unfold E, end_time, at_update. rewrite (paced_real g m ST), plus_INR, mult_INR. ring. }
  rewrite LE in S1, S2.
  destruct (accepted_f_starts g m nd tol _ goal vchk rv sd w1 f ST ltac:(lia) HT PF AC i ltac:(lia)) as [I0 I1].
  rewrite L2, S1, D in I0. rewrite L3, S2, D in I1.
  assert (NTH : forall h : nat -> R, nth i (map h (seq 0 2)) 0 = h i)
    by (intros h; assert (C : i = 0%nat \/ i = 1%nat) by lia; destruct C as [-> | ->]; reflexivity).
  rewrite NTH in I0, I1.
  destruct (accepted_end g m nd tol _ goal vchk rv sd w1 f i ST ltac:(lia) HT AC ltac:(lia)) as [G0 G1]. fold T in G0, G1.
  pose proof (f_accepted_limits g m nd tol b goal vchk rv sd w1 f ST Tt D HT PF AC) as WI. cbv zeta in WI. fold L in WI.
  pose proof (fcourse_incr0 g f i (two (vxmin L) (vymin L) i) (two (vxmax L) (vymax L) i) 0 T PF HT ltac:(lia)
    (fun u Hu => proj1 (WI i u ltac:(lia) Hu)) ltac:(lra) ltac:(lra) ltac:(unfold T; lra)) as Q0.
  pose proof (fcourse_incr1 g f i (two (axmin L) (aymin L) i) (two (axmax L) (aymax L) i) 0 T PF HT ltac:(lia)
    (fun u Hu => proj2 (WI i u ltac:(lia) Hu)) ltac:(lra) ltac:(lra) ltac:(unfold T; lra)) as Q1.
  rewrite Rminus_0_r, G0, I0 in Q0. rewrite Rminus_0_r, I1 in Q1. split; [exact Q0|]. intros ND. rewrite (G1 ND 1%nat ltac:(lia)) in Q1. lra.
Qed.
