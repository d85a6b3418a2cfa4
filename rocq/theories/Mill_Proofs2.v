(** The columns that a machining run records. *)
From Coq Require Import Reals QArith Qreals ZArith Lra Lia List Arith Bool.
From Coq Require Lqa.
From Verif Require Import Blossom Spline_Model Spline_Spec Splop_Spec Splop_Model Spline_Proofs Spline_Proofs2 Spline_Proofs3 Splop_Proofs2 Multi_Model Multi_Spec Multi_Proofs
  Concat_Model Concat_Spec Concat_Proofs Concat_Proofs4 Concat_Proofs6 Lift_Proofs Loop_Model Loop_Proofs Loop_Proofs2 Mill_Model Mill_Spec Mill_Proofs.
From Verif Require Import End_Proofs.
From Verif Require Timing_Model Timing_Proofs Grid_Model Gcode_Model Free_Proofs Concat_Proofs7.
Import ListNotations.
Local Open Scope R_scope.

(** ** inner knots stay simple when segments are joined *)
Definition simple (ks : list R) (lo hi : R) : Prop :=
  forall i, (S i < length ks)%nat -> lo < nth i ks 0 < hi -> nth i ks 0 < nth (S i) ks 0.
Lemma simple_of : forall b, clamped_on b 0 1 -> (forall x, 0 < x < 1 -> mult_le b x 1) -> simple (knots b) 0 1.
Proof.
  intros b [[ND _] _] M i Hi I. assert (LE : nth i (knots b) 0 <= nth (S i) (knots b) 0) by (apply ND; lia).
  destruct (Rle_lt_or_eq_dec _ _ LE) as [L|E]; [exact L|].
  exfalso. apply (M _ I i); [lia|]. split; [reflexivity|]. rewrite Nat.add_1_r. symmetry. exact E.
Qed.
Lemma of_simple : forall b lo hi x, simple (knots b) lo hi -> lo < x < hi -> mult_le b x 1.
Proof.
  intros b lo hi x S Hx i Hi [A B]. rewrite Nat.add_1_r in *. specialize (S i ltac:(lia)). rewrite A in S. specialize (S Hx). lra.
Qed.
Lemma scaled_simple : forall ks T, 0 < T -> simple ks 0 1 -> simple (map (fun k => k * T + 0) ks) 0 T.
Proof.
  intros ks T HT S i Hi I. rewrite map_length in Hi.
  rewrite !(nth_map_in (fun k => k * T + 0) ks _ 0 0) in * by lia.
  specialize (S i Hi). assert (0 < nth i ks 0 < 1).
  { split; [apply (Rmult_lt_reg_r T)|apply (Rmult_lt_reg_r T)]; lra. }
  specialize (S H). nra.
Qed.
Lemma joined_simple : forall ks s T lo tau, clamped_on (mkB ks 3) lo tau -> proper 3 s -> 0 < T ->
  simple ks lo tau -> simple (knots (sbasis s)) 0 1 -> simple (joined_knots 3 1 ks s T) lo (tau + T).
Proof.
  intros ks s T lo tau C (CS & _ & DS) HT S1 S2.
  pose proof (last_tau _ _ _ C) as LT. cbn [knots] in LT.
  destruct C as [[ND LN] [(C0 & C1 & C2 & C3) [L0 L1]]]. cbn [knots degree] in *.
  destruct CS as [[ND' LN'] [(D0 & D1 & D2 & D3) [M0 M1]]]. rewrite DS in *.
  unfold joined_knots. rewrite LT. intros i Hi I.
  rewrite app_length, firstn_length, map_length, skipn_length in Hi.
  set (h := firstn (length ks - (3 + 1) + 1) ks) in *.
  assert (HL : length h = (length ks - 3)%nat) by (unfold h; rewrite firstn_length; lia).
  assert (HN : forall j, (j < length ks - 3)%nat -> nth j h 0 = nth j ks 0).
  { intros j Hj. unfold h. apply nth_firstn. lia. }
  assert (TN : forall j, (j < length (knots (sbasis s)) - 4)%nat ->
     nth j (map (fun k => k * T + tau) (skipn (3 + 1) (knots (sbasis s)))) 0 = nth (4 + j) (knots (sbasis s)) 0 * T + tau).
  { intros j Hj. rewrite (nth_map_in _ _ j 0 0) by (rewrite skipn_length; lia). rewrite nth_skipn. reflexivity. }
  assert (TP : forall j, (j < length (knots (sbasis s)) - 4)%nat -> 0 < nth (4 + j) (knots (sbasis s)) 0).
  { intros j Hj. apply Rlt_le_trans with (nth 4 (knots (sbasis s)) 0); [change (3 + 1)%nat with 4%nat in D2; lra|]. apply ND'; lia. }
  destruct (lt_dec (S i) (length ks - 3)) as [A|A].
  - rewrite !app_nth1 in * by lia. rewrite !HN in * by lia. apply S1; [lia|].
    split; [apply I|]. apply Rle_lt_trans with (nth (length ks - 3 - 2) ks 0); [apply ND; lia|]. lra.
  - destruct (lt_dec i (length ks - 3)) as [B|B].
    + assert (i = length ks - 4)%nat by lia. subst i. rewrite (app_nth1 h) in * by lia. rewrite HN in * by lia.
      rewrite app_nth2 by lia. rewrite TN by lia.
      assert (nth (length ks - 4) ks 0 = tau) by (replace (length ks - 4)%nat with (length ks - 3 - 1)%nat by lia; lra).
      rewrite H. pose proof (TP (S (length ks - 4) - length h)%nat ltac:(lia)). nra.
    + rewrite !app_nth2 in * by lia. rewrite !TN in * by lia.
      replace (4 + (S i - length h))%nat with (S (4 + (i - length h))) by lia.
      pose proof (TP (i - length h)%nat ltac:(lia)) as P.
      assert (nth (4 + (i - length h)) (knots (sbasis s)) 0 < nth (S (4 + (i - length h))) (knots (sbasis s)) 0); [|nra].
      apply S2; [lia|]. split; [exact P|]. apply (Rmult_lt_reg_r T); lra.
Qed.
Lemma join_knots : forall P s T tau r lo, clamped_on (sbasis P) lo tau -> proper 3 s -> degree (sbasis P) = 3%nat -> 0 < T ->
  join 1 P s T tau = Some r -> sbasis r = mkB (joined_knots 3 1 (knots (sbasis P)) s T) 3.
Proof.
  intros P s T tau r lo CP (CS & ZS & DS) DP HT J. unfold join in J. rewrite DP in J. cbv zeta in J.
  change (1 =? Z.of_nat 3 + 1)%Z with false in J. cbv iota in J.
  destruct (gsolve _ _) as [c|]; [|discriminate]. injection J as <-. cbn [sbasis]. unfold joined_knots, tail_knots.
  change 1%Z with (Z.of_nat 1). rewrite head_knots_nat; [reflexivity|].
  destruct CP as [[_ LN] _]. rewrite DP in LN. lia.
Qed.
Lemma one_simple : forall rest P t r, clamped_on (sbasis P) 0 t -> degree (sbasis P) = 3%nat -> 0 <= t ->
  simple (knots (sbasis P)) 0 t -> Forall (fun q => regular_spline 3 (fst q) /\ 0 < snd q) rest ->
  concat_one 1 P t rest = Some r -> simple (knots (sbasis r)) 0 (t + duration rest).
Proof.
  induction rest as [|[s T] rest IH]; intros P t r C D H0 S F E.
  - cbn in E. injection E as <-. cbn [duration fold_right]. rewrite Rplus_0_r. exact S.
  - cbn [concat_one] in E. destruct (join 1 P s T t) as [P'|] eqn:J; [|discriminate].
    inversion F as [|? ? [(RS1 & RS2 & RS3 & RS4) HT] F']; subst. cbn [fst snd] in *.
    assert (PR : proper 3 s) by (repeat split; try apply RS1; auto).
    assert (CP : clamped_on (mkB (knots (sbasis P)) 3) 0 t) by (rewrite <- D; destruct (sbasis P); exact C).
    pose proof (join_knots P s T t P' 0 C PR D HT J) as B.
    destruct (joined_clamped 3 1 (knots (sbasis P)) 0 t s T CP PR HT ltac:(lia)) as [CJ _].
    cbn [duration fold_right snd]. replace (t + (T + fold_right (fun p a => snd p + a) 0 rest)) with ((t + T) + duration rest)
      by (unfold duration; ring).
    apply (IH P'); auto.
    + rewrite B. exact CJ.
    + rewrite B. reflexivity.
    + lra.
    + rewrite B. apply joined_simple; auto. apply simple_of; auto.
Qed.

(** ** the stored splines, evaluated as splev does *)
Lemma splev_simple : forall r hi o x, clamped_on (sbasis r) 0 hi -> sized r -> degree (sbasis r) = 3%nat -> simple (knots (sbasis r)) 0 hi ->
  (o <= 2)%nat -> 0 <= x <= hi -> splev (derivative r o) x = call (derivative r o) x.
Proof.
  intros r hi o x C Z D S O Hx.
  destruct (deriv_inv o r ltac:(lia) (proj1 C) Z) as (B1 & B2 & B3 & _ & _ & B4).
  apply (splev_call _ 0 hi).
  - destruct C as (WF & CL & E1 & E2). destruct (deriv_ends o r ltac:(lia) WF Z CL) as [EL ER]. unfold lo_end, hi_end in *.
    split; [exact B1|]. split; [apply deriv_clamped; auto; lia|]. split; [rewrite EL; exact E1|rewrite ER; exact E2].
  - exact B2.
  - exact Hx.
  - intros I. apply (mult_le_weaken _ _ 1); [rewrite B3; lia|apply B1|]. apply B4. apply (of_simple _ 0 hi); auto.
Qed.

Lemma fit_times : forall g a, fit g a -> Forall (fun T => 0 < T) (map Q2R (times a)).
Proof.
  intros g a (_ & _ & _ & F & _). rewrite Forall_map. revert F. apply Forall_impl. intros T H. apply Q2R_pos. exact H.
Qed.
Lemma fit_degree : forall g a, fit g a -> gcode_continuity (pieces a) = 3%nat.
Proof.
  intros g a F. destruct (fit_first g a F) as (sg & r & -> & N & RS). destruct sg as [|s sg]; [discriminate|].
  inversion RS as [|? ? R1 _]; subst. apply R1.
Qed.
Lemma first_head : forall g a i d x, fit g a -> (i < 3)%nat -> x <= Q2R (first_time a) ->
  travelled (component i (pieces a) (map Q2R (times a))) d x = in_seconds (fst (leg i a)) (snd (leg i a)) d x.
Proof.
  intros g a i d x F Hi Hx. destruct (fit_first g a F) as (sg & r & P & N & RS). destruct F as (_ & _ & L & _).
  unfold leg, first_time in *. rewrite P in *. destruct (times a) as [|T ts]; [discriminate|].
  unfold component. cbn [map combine hd fst snd] in *. apply travelled_head. exact Hx.
Qed.
Lemma duration_first : forall g a i, fit g a -> Q2R (first_time a) <= duration (component i (pieces a) (map Q2R (times a))).
Proof.
  intros g a i F. pose proof (fit_times g a F) as P. destruct (fit_first g a F) as (sg & r & E & _). destruct F as (_ & _ & L & _).
  unfold first_time. rewrite E in *. destruct (times a) as [|T ts]; [discriminate|].
  unfold component. cbn [map combine hd duration fold_right snd]. inversion P; subst.
  assert (0 <= duration (combine (map (fun sg => nth i sg no_spline) r) (map Q2R ts))); [|unfold duration in *; lra].
  apply duration_pos. rewrite Forall_forall in *. intros [s x] Hq. cbn [snd]. apply in_combine_r in Hq. auto.
Qed.

Lemma stored_first : forall g a ss i d x, fit g a -> connected a -> deg g = 3%nat ->
  store_splines (pieces a) (map Q2R (times a)) (Some (gcode_continuity (pieces a))) (deg g) = Some ss ->
  (i < 3)%nat -> (d <= 2)%nat -> 0 <= x <= Q2R (first_time a) ->
  length ss = 3%nat /\ splev (derivative (nth i ss no_spline) d) x = in_seconds (fst (leg i a)) (snd (leg i a)) d x.
Proof.
  intros g a ss i d x F [CO UN] DG ST Hi Hd Hx. pose proof (fit_times g a F) as PT. pose proof (fit_degree g a F) as GC.
  pose proof (fit_leg g a i F Hi) as [RL HL]. pose proof (duration_first g a i F) as DF.
  assert (HX : 0 <= x <= duration (component i (pieces a) (map Q2R (times a)))) by lra.
  rewrite <- (first_head g a i d x F Hi) by apply Hx.
  destruct (le_lt_dec 2 (length (pieces a))) as [L2|L1].
  - pose proof F as (RS & _ & LT & _).
    pose proof (component_proper 3 3 _ _ i (regular_proper _ _ _ RS) PT Hi) as CPR.
    pose proof (gcode_meets 3 3 3 _ _ i RS PT (le_n _) Hi) as M. rewrite GC in CO. specialize (M CO).
    unfold store_splines, store_insert in ST. rewrite GC, DG in ST.
    change (Some (Z.of_nat 3 - (Z.of_nat 3 - 1))%Z) with (Some (Z.of_nat 1)) in ST.
    pose proof (proj2 (cubic_segments_clear _ CPR) (UN i Hi)) as CL.
    destruct (concat_smooth 3 3 (Some (Z.of_nat 1)) _ _ 1 ss i (regular_proper _ _ _ RS) PT L2 Hi eq_refl ltac:(lia) M CL ST)
      as (A1 & A2 & A3 & A4 & A5).
    split; [exact A1|]. rewrite <- (A5 d x) by (try lia; exact HX).
    apply (splev_simple _ (duration (component i (pieces a) (map Q2R (times a))))); auto.
    assert (FL : Forall (fun sg : list bspline => length sg = 3%nat) (pieces a)).
    { eapply Forall_impl; [|exact RS]. intros sg H. apply H. }
    destruct (concat_splines_comp _ _ _ ss 3 ST ltac:(lia) FL L2) as (m' & U' & _ & K). injection U' as <-.
    destruct (K i Hi) as (s & T & rest & EC & EO).
    assert (GS := component_good 3 3 _ _ i RS PT Hi). rewrite EC in *. inversion GS as [|? ? [R1 R2] GS']; subst. cbn [fst snd] in *.
    cbn [duration fold_right snd]. change (fold_right (fun p0 a0 => snd p0 + a0) 0 rest) with (duration rest).
    pose proof R1 as (Q1 & Q2 & Q3 & Q4).
    destruct (first_scaled s T 3 Q1 Q2 Q3 R2) as (W1 & W2 & W3 & _).
    apply (one_simple rest (scale s T 0) T); auto; [lra|].
    apply scaled_simple; [exact R2|]. apply simple_of; auto.
  - pose proof F as (RS & L & LT & _). rewrite first_head with (g := g) by (auto; lra).
    destruct (pieces a) as [|sg [|sg2 r]] eqn:P; [cbn in L; lia| |cbn in L1; lia].
    destruct (times a) as [|T [|T2 ts]] eqn:Ti; [discriminate| |discriminate].
    cbn [store_splines concat_splines concat_loop map] in ST. injection ST as <-.
    inversion RS as [|? ? [N FS] _]; subst. rewrite map_length. split; [exact N|].
    rewrite (nth_indep _ no_spline (scale no_spline (Q2R T) 0)) by (rewrite map_length; lia).
    rewrite (map_nth (fun s => scale s (Q2R T) 0)).
    unfold leg, first_time in *. rewrite P, Ti in *. cbn [hd fst snd] in *.
    destruct RL as (Q1 & Q2 & Q3 & Q4). apply stored_value; auto. split; assumption.
Qed.

(** ** the samples of a pass *)
Lemma fold_total : forall l s, (Forall (fun T => (0 < T)%Q) l -> s <= fold_left Qplus l s)%Q.
Proof.
  intros l. induction l as [|x l IH]; intros s F; cbn [fold_left]; [apply Qle_refl|].
  inversion F; subst. eapply Qle_trans; [|apply IH; assumption]. Lqa.lra.
Qed.
Lemma first_le : forall g a, fit g a -> (first_time a <= fold_left Qplus (times a) 0)%Q.
Proof.
  intros g a F. pose proof (fit_time g a F) as [P _]. destruct F as (_ & _ & _ & F & _). unfold first_time in *.
  destruct (times a) as [|T ts]; [cbn in P; exfalso; revert P; apply Qlt_irrefl|]. cbn [hd fold_left]. inversion F; subst.
  eapply Qle_trans; [|apply fold_total; assumption]. Lqa.lra.
Qed.
Lemma nsamp_nonneg : forall g a, (0 < step g)%Q -> fit g a -> (0 <= Timing_Model.n_samp (first_time a) (step g))%Z.
Proof. intros g a S F. apply Timing_Proofs.n_samp_nonneg; [exact S|]. apply Qlt_le_weak. apply (fit_time g a F). Qed.

(** what a sample of the first segment holds *)
Definition leg_sample (a : result) (t : R) (c : sample) : Prop :=
  length (q_state c) = 3%nat /\ length (q_input c) = 3%nat /\ length (q_dinput c) = 3%nat /\
  forall i, (i < 3)%nat -> nth i (q_state c) 0 = in_seconds (fst (leg i a)) (snd (leg i a)) 0 t /\
    nth i (q_input c) 0 = in_seconds (fst (leg i a)) (snd (leg i a)) 1 t /\
    nth i (q_dinput c) 0 = in_seconds (fst (leg i a)) (snd (leg i a)) 2 t.

Lemma samples_ok : forall g a l, (0 < step g)%Q -> deg g = 3%nat -> fit g a -> connected a -> within g a ->
  mill_samples g a = Some l ->
  Forall2 (leg_sample a) (map (fun j => INR j * Q2R (step g)) (seq 1 (samples g a))) (cols (samples g a) l).
Proof.
  intros g a l S D F C W E. unfold samples. set (n := Z.to_nat (Timing_Model.n_samp (first_time a) (step g))) in *.
  pose proof (nsamp_nonneg g a S F) as N0.
  destruct (Nat.eq_dec n 0) as [Z|Z]; [rewrite Z; constructor|].
  unfold mill_samples in E. destruct (store_splines _ _ _ _) as [ss|] eqn:ST; [|discriminate]. injection E as <-.
  set (axis := Timing_Model.time_axis _ _ _).
  assert (WN : (inject_Z (Z.of_nat n) * step g <= first_time a)%Q).
  { unfold n. rewrite Z2Nat.id by exact N0. exact W. }
  assert (AX : forall j, (j <= n)%nat -> (n < List.length axis)%nat /\ (nth j axis 0 == 0 + inject_Z (Z.of_nat j) * step g)%Q).
  { intros j J. apply axis_nth; [exact S|lia| |exact J]. pose proof (first_le g a F). Lqa.lra. }
  rewrite (firstn_skip no_sample) by (rewrite map_length; apply (AX 0%nat); lia).
  assert (G : forall k m, (m + k = n + 1)%nat -> (1 <= m)%nat ->
    Forall2 (leg_sample a) (map (fun j => INR j * Q2R (step g)) (seq m k)) (map (fun j => nth j (map (tool_signals ss) axis) no_sample) (seq m k))).
  { induction k as [|k IH]; intros m K M; cbn [seq map]; constructor; [|apply IH; lia].
    destruct (AX m ltac:(lia)) as [L V]. rewrite (nth_map_in _ axis m no_sample 0%Q) by lia.
    assert (VR : Q2R (nth m axis 0%Q) = INR m * Q2R (step g)).
    { rewrite (Qeq_eqR _ _ V), Q2R_plus, Q2R_nat. unfold Q2R at 1. cbn. ring. }
    assert (XR : 0 <= INR m * Q2R (step g) <= Q2R (first_time a)).
    { apply Qle_Rle in WN. rewrite Q2R_nat in WN. pose proof (Q2R_pos _ S) as PT. pose proof (pos_INR m).
      assert (M' : (m <= n)%nat) by lia. apply le_INR in M'.
      assert (INR m * Q2R (step g) <= INR n * Q2R (step g)) by (apply Rmult_le_compat_r; lra).
      assert (0 <= INR m * Q2R (step g)) by (apply Rmult_le_pos; lra). lra. }
    pose proof (stored_first g a ss 0 0 _ F C D ST ltac:(lia) ltac:(lia) XR) as [LS _].
    unfold leg_sample, tool_signals. cbn [q_state q_input q_dinput]. rewrite !map_length, VR. repeat split; auto.
    - rewrite (nth_map_in _ ss i 0 no_spline) by lia. apply (stored_first g a ss i 0); auto.
    - rewrite (nth_map_in _ ss i 0 no_spline) by lia. apply (stored_first g a ss i 1); auto.
    - rewrite (nth_map_in _ ss i 0 no_spline) by lia. apply (stored_first g a ss i 2); auto. }
  apply G; lia.
Qed.

(** ** the columns of a whole run *)
Lemma stamps_snoc : forall g as_ a s, stamps g s (as_ ++ [a]) = stamps g s as_ ++
  map (fun j => s + duration (chain 0 as_) + INR j * Q2R (step g)) (seq 1 (samples g a)) ++
  [s + duration (chain 0 as_) + Q2R (first_time a)].
Proof.
  intros g as_ a. induction as_ as [|c r IH]; intros s; cbn [app stamps].
  - cbn [chain map duration fold_right]. rewrite !Rplus_0_r. reflexivity.
  - rewrite IH. rewrite <- !app_assoc. cbn [app]. f_equal. f_equal. f_equal.
    cbn [chain map duration fold_right snd leg]. change (fold_right (fun p a0 => snd p + a0) 0 (map (leg 0) r)) with (duration (chain 0 r)).
    f_equal; [|f_equal; ring]. apply map_ext. intros j. ring.
Qed.
Lemma stamps_within : forall g as_ s t, Forall (fit g) as_ -> Forall (within g) as_ -> (0 < step g)%Q -> In t (stamps g s as_) ->
  s < t <= s + duration (chain 0 as_).
Proof.
  intros g as_. induction as_ as [|a r IH]; intros s t F W S I; [destruct I|].
  inversion F as [|? ? FA FR]; inversion W as [|? ? WA WR]; subst.
  assert (DN : 0 <= duration (chain 0 r)).
  { apply duration_pos. assert (GS := chain_good g r 0 FR ltac:(lia)). revert GS. apply Forall_impl. intros q [_ H]; exact H. }
  pose proof (proj2 (fit_time g a FA)) as TP.
  cbn [stamps chain map duration fold_right snd leg] in *.
  change (fold_right (fun p a0 => snd p + a0) 0 (map (leg 0) r)) with (duration (chain 0 r)).
  apply in_app_or in I. destruct I as [I|[<-|I]].
  - apply in_map_iff in I. destruct I as (j & <- & J). apply in_seq in J. unfold samples in J.
    pose proof (nsamp_nonneg g a S FA) as N0. unfold within in WA. apply Qle_Rle in WA. rewrite Q2R_mult, Q2R_inj in WA.
    pose proof (Q2R_pos _ S) as PT.
    assert (INR j <= IZR (Timing_Model.n_samp (first_time a) (step g))) by (rewrite INR_IZR_INZ; apply IZR_le; lia).
    assert (0 < INR j) by (apply lt_0_INR; lia).
    assert (INR j * Q2R (step g) <= IZR (Timing_Model.n_samp (first_time a) (step g)) * Q2R (step g)) by (apply Rmult_le_compat_r; lra).
    assert (0 < INR j * Q2R (step g)) by (apply Rmult_lt_0_compat; lra). lra.
  - lra.
  - destruct (IH (s + Q2R (first_time a)) t FR WR S I). lra.
Qed.
Lemma chain_dur : forall i as_, duration (chain i as_) = duration (chain 0 as_).
Proof. intros. rewrite !chain_duration. reflexivity. Qed.
Lemma holds_more : forall g as_ a t c, Forall (fit g) as_ -> as_ <> [] -> t <= duration (chain 0 as_) ->
  holds as_ t c -> holds (as_ ++ [a]) t c.
Proof.
  intros g as_ a t c F NE Ht (A & B & C & V). split; [exact A|]. split; [exact B|]. split; [exact C|].
  intros i Hi. destruct (V i Hi) as (V0 & V1 & V2).
  assert (GS := chain_good g as_ i F Hi).
  assert (PS : Forall (fun q : bspline * R => 0 < snd q) (chain i as_)) by (revert GS; apply Forall_impl; intros q [_ H]; exact H).
  assert (NC : chain i as_ <> []) by (destruct as_; [congruence|discriminate]).
  rewrite chain_snoc. destruct (leg i a) as [s T]. rewrite !travelled_snoc by assumption. rewrite (chain_dur i).
  destruct (Rle_dec t (duration (chain 0 as_))) as [L|L]; [auto|contradiction].
Qed.
Lemma holds_new : forall g as_ a t c, Forall (fit g) as_ -> 0 < t -> leg_sample a t c ->
  holds (as_ ++ [a]) (duration (chain 0 as_) + t) c.
Proof.
  intros g as_ a t c F Ht (A & B & C & V). split; [exact A|]. split; [exact B|]. split; [exact C|].
  intros i Hi. destruct (V i Hi) as (V0 & V1 & V2).
  assert (GS := chain_good g as_ i F Hi).
  assert (PS : Forall (fun q : bspline * R => 0 < snd q) (chain i as_)) by (revert GS; apply Forall_impl; intros q [_ H]; exact H).
  destruct as_ as [|a0 r].
  - cbn [app chain map duration fold_right]. rewrite Rplus_0_l. destruct (leg i a) as [s T]. cbn [travelled fst snd] in *. auto.
  - rewrite chain_snoc. destruct (leg i a) as [s T]. rewrite !travelled_snoc by (auto; discriminate). rewrite (chain_dur i).
    destruct (Rle_dec (duration (chain 0 (a0 :: r)) + t) (duration (chain 0 (a0 :: r)))) as [L|L]; [lra|].
    replace (duration (chain 0 (a0 :: r)) + t - duration (chain 0 (a0 :: r))) with t by ring. cbn [fst snd] in *. auto.
Qed.
Lemma end_sample : forall g a sg r, fit g a -> pieces a = sg :: r ->
  leg_sample a (Q2R (first_time a)) (end_values sg (Q2R (first_time a))).
Proof.
  intros g a sg r F P. destruct (fit_first g a F) as (sg' & r' & P' & N & _). rewrite P in P'. injection P' as <- <-.
  destruct (end_length sg (Q2R (first_time a))) as (A & B & C & _). unfold leg_sample. rewrite A, B, C. repeat split; auto.
  all: destruct (end_nth sg (Q2R (first_time a)) i ltac:(lia) (proj2 (fit_time g a F))) as (E0 & E1 & E2 & _);
    unfold leg; rewrite P; cbn [hd fst snd]; assumption.
Qed.

Theorem mill_columns : forall g s0 b0 as_ b, (0 < step g)%Q -> deg g = 3%nat -> Forall (fit g) as_ -> Forall (fun a => good a = true) as_ ->
  Forall connected as_ -> Forall (within g) as_ -> as_ <> [] ->
  length s0 = 3%nat -> traj b0 = [mkP s0 [0; 0; 0] [0; 0; 0] [0; 0; 0]] ->
  follows [] s0 b0 -> all_begin g b0 as_ -> mill_passes g as_ b0 = Some b ->
  Forall2 (holds as_) (0 :: stamps g 0 as_) (traj b).
Proof.
  intros g s0 b0 as_ b S D F G C W NE LS T0 F0 B E.
  assert (H : forall as_ b, Forall (fit g) as_ -> Forall (fun a => good a = true) as_ -> Forall connected as_ -> Forall (within g) as_ ->
    mill_passes g as_ b0 = Some b -> exists l, traj b = mkP s0 [0; 0; 0] [0; 0; 0] [0; 0; 0] :: l /\ Forall2 (holds as_) (stamps g 0 as_) l).
  { clear as_ b F G C W NE B E. intros as_. induction as_ as [|a as_ IH] using rev_ind; intros b F G C W E.
    - injection E as <-. exists []. split; [exact T0|constructor].
    - rewrite passes_snoc in E. destruct (mill_passes g as_ b0) as [b1|] eqn:E1; [|discriminate].
      apply Forall_app in F. apply Forall_app in G. apply Forall_app in C. apply Forall_app in W.
      destruct F as [F Fa]. destruct G as [G Ga]. destruct C as [C Ca]. destruct W as [W Wa].
      inversion Fa as [|? ? FA _]; inversion Ga as [|? ? GA _]; inversion Ca as [|? ? CA _]; inversion Wa as [|? ? WA _]; subst.
      destruct (IH b1 F G C W eq_refl) as (l & TL & HL).
      destruct (good_pass g a b1 b FA GA E) as (t & p & w & sg & r & pl & _ & _ & P & MS & ->).
      exists (l ++ appended g (first_time a) pl (end_values sg (Q2R (first_time a)))). cbn [traj]. rewrite TL. split; [reflexivity|].
      rewrite stamps_snoc. apply Forall2_app.
      + destruct as_ as [|a0 r0]; [inversion HL; constructor|].
        assert (SW : forall t, In t (stamps g 0 (a0 :: r0)) -> t <= duration (chain 0 (a0 :: r0))).
        { intros x Hx. destruct (stamps_within g _ _ _ F W S Hx). lra. }
        clear - HL SW F. revert SW HL. generalize (stamps g 0 (a0 :: r0)). intros ts SW HL.
        induction HL as [|x c ts l H HL IH]; constructor.
        * apply (holds_more g); auto; [discriminate|]. apply SW. left; reflexivity.
        * apply IH. intros t Ht. apply SW. right; exact Ht.
      + unfold appended. apply Forall2_app.
        * pose proof (samples_ok g a pl S D FA CA WA MS) as SO. fold (samples g a).
          replace (map (fun j => 0 + duration (chain 0 as_) + INR j * Q2R (step g)) (seq 1 (samples g a)))
            with (map (fun t => duration (chain 0 as_) + t) (map (fun j => INR j * Q2R (step g)) (seq 1 (samples g a))))
            by (rewrite map_map; apply map_ext; intros j; ring).
          assert (PO : Forall (fun t => 0 < t) (map (fun j => INR j * Q2R (step g)) (seq 1 (samples g a)))).
          { apply Forall_forall. intros x Hx. apply in_map_iff in Hx. destruct Hx as (j & <- & J). apply in_seq in J.
            apply Rmult_lt_0_compat; [apply lt_0_INR; lia|apply Q2R_pos; exact S]. }
          clear - SO PO F. induction SO as [|x c xs cs H SO IH]; cbn [map]; constructor.
          { inversion PO; subst. apply (holds_new g); auto. }
          apply IH. inversion PO; assumption.
        * constructor; [|constructor]. rewrite Rplus_0_l. apply (holds_new g); [exact F|apply (fit_time g a FA)|].
          apply (end_sample g a sg r FA P). }
  destruct (H as_ b F G C W E) as (l & TL & HL). rewrite TL. constructor; [|exact HL].
  destruct as_ as [|a r]; [congruence|].
  unfold holds. cbn [q_state q_input q_dinput]. split; [exact LS|]. split; [reflexivity|]. split; [reflexivity|].
  intros i Hi. destruct (mill_begin g s0 b0 a r b i F G F0 B E Hi) as (V0 & V1 & V2). rewrite V0, V1, V2.
  split; [reflexivity|]. destruct i as [|[|[|i]]]; [auto|auto|auto|lia].
Qed.
