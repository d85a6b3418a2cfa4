(** Free end time: stop, objective and termination; what goes wrong. *)
From Coq Require Import String Reals QArith Qreals ZArith Lra Lia List Arith Bool.
From Coq Require Lqa.
From Verif Require Import Spline_Model Spline_Spec Splop_Spec Vehicle_Model Vehicle_Spec Vehicle_Proofs Vehicle_Proofs2 Quad_Proofs
  Wheel_Proofs Lift_Model Lift_Spec Lift_Proofs Lift_Proofs2 Lift_Proofs3 Lift_Proofs4
  Loop_Model Loop_Spec Loop_Proofs Loop_Proofs2 Loop_Proofs3 Loop_Proofs4 Loop_Proofs5 Loop_Proofs6 Loop_Proofs7 Loop_Proofs8 Loop_Proofs9 Loop_Proofs10 Loop_Proofs11
  Free_Model Free_Spec Free_Proofs Free_Proofs2 Free_Proofs3 Free_Proofs4 Free_Proofs5 Free_Proofs6 Free_Proofs7.
From Verif Require Timing_Model Timing_Proofs Timing_Proofs2 Geom_Spec Obst_Model Obst_Spec.
Import ListNotations.
Local Open Scope R_scope.
Local Notation length := List.length.

Lemma long_not_skipped : forall g m f, paced g m -> long g f -> skipped g f = false.
Proof. intros g m f ST L. apply ltb_false. apply (long_timely g m f ST L). Qed.

Lemma found_proper : forall P g l w, Forall (proper g) l -> all_found P g l w -> all_found (fun w f => P w f /\ proper g f) g l w.
Proof.
  intros P g l. induction l as [|c l IH]; intros w0 FA AP; [exact Logic.I|].
  cbn [all_found] in *. destruct AP as [A B]. inversion FA as [|? ? F1 F2]; subst. split; [intros w1 H; split; [apply A, H|exact F1]|].
  intros w2 H. apply IH; [exact F2|apply B, H].
Qed.

Section Run.
Variables (g : settings) (m : nat) (nd : bool) (tol : R) (limits : R -> option (list con)) (goal : list R)
  (vchk : list (R * R)) (rv sd : R) (s0 i0 : list R) (obs : list obstacle) (fs : list fanswer).
Hypotheses (ST : paced g m) (CO : consistent g) (D : (dim g <= 10)%nat) (LS : length s0 = dim g) (LI : length i0 = dim g)
  (SQ : sequel g fs) (AA : all_found (f_accepted g nd tol limits goal vchk rv sd) g fs (world0 s0 i0 obs)).
Let P := f_accepted g nd tol limits goal vchk rv sd.
Let w0 := world0 s0 i0 obs.

Lemma run_part : forall pre f post, fs = pre ++ f :: post -> Forall (long g) pre ->
  (timely g f /\ legs g pre f /\ all_found P g (pre ++ [f]) w0 \/
   (motion f < ts g)%Q /\ (0 < motion f)%Q /\ exists a b, pre = a ++ [b] /\ long g b /\ legs g a b /\ all_found P g (a ++ [b]) w0).
Proof.
  intros pre f post E FL. destruct SQ as (FP & FU & HD). rewrite E in FP, FU. 
  apply Forall_app in FP. destruct FP as [P1 P2]. apply Forall_inv in P2. apply Forall_app in FU. destruct FU as [_ U2]. apply Forall_inv in U2.
  assert (A1 : all_found P g (pre ++ [f]) w0).
  { apply (found_prefix P g (pre ++ [f]) post). rewrite <- app_assoc. cbn. rewrite <- E. exact AA. }
  destruct U2 as [TI|[T0 T1]].
  - left. split; [exact TI|]. split; [|exact A1]. repeat (split; [assumption|]). exact P2.
  - right. split; [exact T1|]. split; [exact T0|]. destruct pre as [|b0 pre] using rev_ind.
    + exfalso. rewrite E in HD. cbn in HD. Lqa.lra.
    + clear IHpre. exists pre, b0. split; [reflexivity|]. apply Forall_app in FL. destruct FL as [L1 L2]. apply Forall_inv in L2.
      apply Forall_app in P1. destruct P1 as [P1 P3]. apply Forall_inv in P3. split; [exact L2|].
      split; [split; [exact L1|split; [exact P1|split; [apply (long_timely g m b0 ST L2)|exact P3]]]|].
      apply found_prefix in A1. exact A1.
Qed.

Lemma run_after : forall pre f post, fs = pre ++ f :: post -> Forall (long g) pre ->
  exists w l, after g pre f w0 = Some w /\ (now w == inject_Z (Z.of_nat (length pre)) * upd g)%Q /\ (start_time w == 0)%Q /\
    log w = Some l /\
    (c_time (last l no_column) == inject_Z (Z.of_nat (length pre)) * upd g +
       (if skipped g f then 0 else inject_Z (Z.of_nat (count g m f)) * ts g))%Q.
Proof.
  intros pre f post E FL. 
  assert (LT : forall (a : list fanswer) b (l : list column) p v, length l = (length a * m + count g m b + 1)%nat -> recorded g p v l ->
     (c_time (last l no_column) == inject_Z (Z.of_nat (length a)) * upd g + inject_Z (Z.of_nat (count g m b)) * ts g)%Q).
  { intros a b l p v LL RC. destruct (RC (length l - 1)%nat ltac:(lia)) as (A & _). rewrite Obst_Proofs2.last_nth. rewrite A, LL.
    replace (length a * m + count g m b + 1 - 1)%nat with (length a * m + count g m b)%nat by lia.
    destruct ST as (_ & _ & U). rewrite U, Nat2Z.inj_add, Nat2Z.inj_mul, inject_Z_plus, inject_Z_mult. ring. }
  destruct (run_part pre f post E FL) as [(TI & LG & AF)|(T1 & T0 & a & b & -> & LB & LG & AF)].
  - destruct (free_moves g m nd tol limits goal vchk rv sd s0 i0 obs pre f ST CO D LS LI LG AF) as ((p & v & MV) & (w & A & N & S) & _).
    destruct MV as (w3 & l & M1 & M2 & M3 & M4 & _). fold w0 in A, M1. rewrite A in M1. injection M1 as <-.
    exists w, l. split; [exact A|]. split; [exact N|]. split; [exact S|]. split; [exact M2|].
    destruct (count_ok g m f ST TI) as (_ & _ & _ & _ & SK). rewrite SK. apply (LT pre f l p v M3 M4).
  - assert (SK : skipped g f = true) by (apply ltb_true; exact T1).
    destruct (free_moves g m nd tol limits goal vchk rv sd s0 i0 obs a b ST CO D LS LI LG AF) as ((p & v & MV) & _).
    destruct MV as (w3 & l & M1 & M2 & M3 & M4 & _).
    assert (FP : Forall (proper g) (a ++ [b])) by (destruct SQ as (FP & _); rewrite E in FP; apply Forall_app in FP; apply FP).
    destruct (skip_after g m (fun w f => P w f /\ proper g f) s0 i0 obs (a ++ [b]) f ST CO LS LI) as (w & w1 & w' & E1 & E2 & E3 & E4 & E5 & E6 & _).
    { intros w f' LO [X Y]. apply (accepted_f_starts g m nd tol _ goal vchk rv sd w f' ST ltac:(lia) (timely_pos g m f' ST (long_timely g m f' ST LO)) Y X). }
    { exact FL. } { exact FP. } { destruct a; discriminate. } { apply found_proper; [exact FP|exact AF]. } { exact SK. }
    exists w', l. split; [exact E3|]. split; [exact E5|]. split; [exact E6|].
    rewrite passes_after, M1 in E1. injection E1 as <-. cbn [advance log] in E4. split; [rewrite E4; exact M2|].
    rewrite SK. rewrite (LT a b l p v M3 M4), (count_long g m b LB), app_length. destruct ST as (_ & _ & U). rewrite <- U. cbn [length].
    rewrite Nat2Z.inj_add, inject_Z_plus. change (inject_Z (Z.of_nat 1)) with 1%Q. ring.
Qed.

Theorem free_stops : forall stol w J k, f_run g stol goal fs w0 0 = Some (w, J, k) ->
  exists pre f post, fs = pre ++ f :: post /\ length pre = k /\ Forall (long g) pre /\ after g pre f w0 = Some w /\
    ((motion f < upd g)%Q \/ stop_criterium stol goal w = true) /\
    (forall a b c wj, pre = a ++ b :: c -> after g a b w0 = Some wj -> stop_criterium stol goal wj = false).
Proof.
  intros stol w J k R. destruct (run_spec g stol goal fs w0 0%Q w J k R) as (pre & f & post & E1 & E2 & E3 & E4 & E5 & E6 & _).
  exists pre, f, post. repeat (split; [assumption|]). split; [|exact E6]. unfold f_stop in E5.
  destruct (Grid_Model.Qltb (motion f) (upd g)) eqn:Q; [left|right; exact E5].
  destruct (Qlt_le_dec (motion f) (upd g)) as [X|X]; [exact X|]. rewrite (ltb_false _ _ X) in Q. discriminate.
Qed.

Theorem free_objective : forall stol w J k, f_run g stol goal fs w0 0 = Some (w, J, k) ->
  exists f l, nth_error fs k = Some f /\ log w = Some l /\
    (let K := inject_Z (Z.of_nat k) in
     ((motion f < ts g)%Q -> (J == K * upd g)%Q) /\
     ((ts g <= motion f)%Q -> (motion f < upd g)%Q -> (J == K * upd g + motion f)%Q) /\
     ((upd g <= motion f)%Q -> (J == (K + 1) * upd g)%Q)) /\
    (c_time (last l no_column) <= J)%Q /\ (J < c_time (last l no_column) + ts g)%Q.
Proof.
  intros stol w J k R. destruct (run_spec g stol goal fs w0 0%Q w J k R) as (pre & f & post & E1 & E2 & E3 & E4 & _ & _ & E7 & _ & E9).
  destruct (run_after pre f post E1 E3) as (w' & l & A & N & S & LG & CT). rewrite E4 in A. injection A as <-.
  exists f, l. split; [rewrite E1, nth_error_app2, E2, Nat.sub_diag by lia; reflexivity|]. split; [exact LG|].
  cbv zeta. rewrite E2 in *. pose proof ST as (TS & M1 & U). pose proof (paced_upd g m ST) as UP.
  assert (UT : (ts g <= upd g)%Q).
  { rewrite U. assert (X : (1 <= inject_Z (Z.of_nat m))%Q) by (change 1%Q with (inject_Z 1); rewrite <- Zle_Qle; lia).
    apply (Qmult_le_compat_r _ _ (ts g)) in X; Lqa.lra. }
  destruct (run_part pre f post E1 E3) as [(TI & _)|(T1 & T0 & a & b & EP & LB & LGS & AF)].
  - destruct (count_ok g m f ST TI) as (_ & C2 & _ & PI & SK). rewrite SK in *. specialize (E7 eq_refl).
    pose proof TI as [TT _].
    destruct (Qlt_le_dec (motion f) (upd g)) as [L|L].
    + assert (FT : f_time g f = motion f).
      { unfold f_time. rewrite (ltb_true _ _ L). unfold Timing_Model.sim_time. rewrite ltb_false; [reflexivity|].
        assert (Z0 : (motion f - 0 == motion f)%Q) by ring. Lqa.lra. }
      rewrite FT in E7.
      assert (JE : (J == inject_Z (Z.of_nat k) * upd g + motion f)%Q) by (rewrite E7, N, S; ring).
      split; [split; [intros X; exfalso; Lqa.lra|split; [intros _ _; exact JE|intros X; exfalso; Lqa.lra]]|].
      destruct (left_bounds g m f ST TI) as [L0 L1]. specialize (L1 L). unfold left_over in L1.
      assert (L1' : (motion f < inject_Z (Z.of_nat (count g m f)) * ts g + ts g)%Q).
      { apply Rlt_Qlt. rewrite Q2R_plus, Q2R_nat. lra. }
      rewrite CT, JE. split; Lqa.lra.
    + rewrite (long_time g f L) in E7. rewrite (count_long g m f L) in CT. rewrite <- U in CT.
      assert (JE : (J == (inject_Z (Z.of_nat k) + 1) * upd g)%Q) by (rewrite E7, N, S; ring).
      split; [split; [intros X; exfalso; Lqa.lra|split; [intros _ X; exfalso; Lqa.lra|intros _; exact JE]]|].
      assert (EQ : (J == c_time (last l no_column))%Q) by (rewrite JE, CT; ring). rewrite EQ. split; Lqa.lra.
  - assert (SK : skipped g f = true) by (apply ltb_true; exact T1). rewrite SK in *.
    destruct (E9 eq_refl a b EP (long_not_skipped g m b ST LB)) as (wj & AJ & EJ).
    destruct (run_after a b (f :: post)) as (w2 & l2 & A2 & N2 & S2 & _).
    { rewrite E1, EP, <- app_assoc. reflexivity. } { rewrite EP in E3. apply Forall_app in E3. apply E3. }
    rewrite AJ in A2. injection A2 as <-. rewrite (long_time g b LB) in EJ.
    assert (JE : (J == inject_Z (Z.of_nat k) * upd g)%Q).
    { rewrite EJ, N2, S2, <- E2, EP, app_length. cbn [length]. rewrite Nat2Z.inj_add, inject_Z_plus.
      change (inject_Z (Z.of_nat 1)) with 1%Q. ring. }
    split; [split; [intros _; exact JE|split; [intros X; exfalso; Lqa.lra|intros X; exfalso; Lqa.lra]]|].
    assert (EQ : (J == c_time (last l no_column))%Q) by (rewrite JE, CT; ring). rewrite EQ. split; Lqa.lra.
Qed.

Lemma shrink_nth : forall l f0 n f, shrinking g (f0 :: l) -> nth_error (f0 :: l) n = Some f ->
  (motion f + inject_Z (Z.of_nat n) * upd g <= motion f0)%Q.
Proof.
  induction l as [|f1 l IH]; intros f0 n f SH N.
  - destruct n as [|[|n]]; try discriminate. injection N as <-. change (inject_Z (Z.of_nat 0)) with 0%Q. Lqa.lra.
  - destruct SH as [A B]. destruct n as [|n]; [injection N as <-; change (inject_Z (Z.of_nat 0)) with 0%Q; Lqa.lra|].
    cbn [nth_error] in N. specialize (IH f1 n f B N). rewrite Nat2Z.inj_succ, <- Z.add_1_r, inject_Z_plus. change (inject_Z 1) with 1%Q.
    assert (E : ((inject_Z (Z.of_nat n) + 1) * upd g == inject_Z (Z.of_nat n) * upd g + upd g)%Q) by ring. rewrite E. Lqa.lra.
Qed.

Theorem free_terminates : forall stol f0 r, fs = f0 :: r -> shrinking g fs ->
  (motion f0 < inject_Z (Z.of_nat (length fs)) * upd g)%Q ->
  exists w J k f, f_run g stol goal fs w0 0 = Some (w, J, k) /\ nth_error fs k = Some f /\
    (inject_Z (Z.of_nat k) * upd g + motion f <= motion f0)%Q /\ (J <= motion f0)%Q.
Proof.
  intros stol f0 r E SH TL. pose proof (paced_upd g m ST) as UP.
  destruct (run_reaches g stol goal fs w0 0%Q) as ([[w J] k] & R).
  - intros pre f post E1 FL. destruct (run_after pre f post E1 FL) as (w & _ & A & _). exists w. exact A.
  - destruct (nth_error fs (length fs - 1)) as [f|] eqn:N.
    + exists f. split; [apply (nth_error_In _ _ N)|]. rewrite E in N, SH, TL. pose proof (shrink_nth r f0 _ f SH N) as X.
      cbn [length] in X, TL. replace (S (length r) - 1)%nat with (length r) in X by lia.
      rewrite Nat2Z.inj_succ, <- Z.add_1_r, inject_Z_plus in TL. change (inject_Z 1) with 1%Q in TL.
      assert (Y : ((inject_Z (Z.of_nat (length r)) + 1) * upd g == inject_Z (Z.of_nat (length r)) * upd g + upd g)%Q) by ring.
      rewrite Y in TL. Lqa.lra.
    + exfalso. apply nth_error_None in N. rewrite E in N. cbn in N. lia.
  - destruct (free_objective stol w J k R) as (f & l & N & _ & (O1 & O2 & O3) & _).
    exists w, J, k, f. split; [exact R|]. split; [exact N|]. rewrite E in N, SH. pose proof (shrink_nth r f0 k f SH N) as X.
    split; [Lqa.lra|]. pose proof ST as (TS & _).
    destruct (Qlt_le_dec (motion f) (ts g)) as [L1|L1].
    + rewrite (O1 L1). assert (0 < motion f)%Q; [|Lqa.lra].
      destruct SQ as (_ & FU & _). rewrite E in FU. rewrite Forall_forall in FU. destruct (FU f (nth_error_In _ _ N)) as [[TT _]|[T0 _]]; Lqa.lra.
    + destruct (Qlt_le_dec (motion f) (upd g)) as [L2|L2]; [rewrite (O2 L1 L2); Lqa.lra|]. rewrite (O3 L2).
      assert (Y : ((inject_Z (Z.of_nat k) + 1) * upd g == inject_Z (Z.of_nat k) * upd g + upd g)%Q) by ring. rewrite Y. Lqa.lra.
Qed.
End Run.

(** ** what goes wrong *)
(** nothing to read where nothing was stored *)
Theorem free_first_skipped : forall g f s0 i0 obs, (motion f < ts g)%Q -> f_update g f (world0 s0 i0 obs) = None.
Proof.
  intros g f s0 i0 obs L. unfold f_update. rewrite prepared_first. unfold f_deployed.
  assert (SK : skipped g f = true) by (apply ltb_true; exact L). rewrite SK. reflexivity.
Qed.
