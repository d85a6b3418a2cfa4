From Coq Require Import Reals List Arith Bool ZArith Lia Lra.
From Verif Require Import Spline_Model Spline_Spec Spline_Proofs Spline_Proofs3 Splop_Model Splop_Spec Splop_Proofs2 Splop_Proofs3 Splop_Proofs4
  Obst_Model Vehicle_Model Vehicle_Spec Lift_Model Lift_Spec Lift_Proofs Lift_Proofs2.
Import ListNotations.
Local Open Scope R_scope.

Lemma dot_agree : forall u v w, length v = length w ->
  (forall i, (i < length v)%nat -> nth i u 0 = 0 \/ nth i v 0 = nth i w 0) -> dot u v = dot u w.
Proof.
  induction u as [|a u IH]; intros [|b v] [|c w] L H; try discriminate; try reflexivity.
  pose proof (IH v w ltac:(cbn in L; lia) (fun i Hi => H (Datatypes.S i) ltac:(cbn; lia))) as K.
  destruct (H 0%nat ltac:(cbn; lia)) as [Z|Z]; cbn [nth] in Z; unfold dot in *; cbn [combine map fold_right fold_left] in *.
  - rewrite Z. cbn [fst snd]. rewrite ?Rmult_0_l. first [rewrite K; reflexivity | idtac].
  - rewrite Z. first [rewrite K; reflexivity | idtac].
Qed.

Lemma skipn_nth : forall (l : list R) k i, nth i (skipn k l) 0 = nth (k + i) l 0.
Proof. induction l as [|a l IH]; intros [|k] i; cbn; auto; try (destruct i; reflexivity). Qed.
Lemma firstn_nth : forall (l : list R) k i, (i < k)%nat -> nth i (firstn k l) 0 = nth i l 0.
Proof. induction l as [|a l IH]; intros [|k] [|i] H; cbn; auto; try lia. apply IH. lia. Qed.
Lemma kept_in : forall s0 s1 c i, (0 < s0 + s1)%nat -> (s0 <= i)%nat -> (i + s1 < length c)%nat ->
  In (nth i c 0) (kept (Some (s0, s1)) c).
Proof.
  intros [|s0] [|s1] c i P A B; cbn [kept]; [lia| | |].
  - rewrite <- (firstn_nth c (length c - Datatypes.S s1)) by lia. apply nth_In. rewrite firstn_length. lia.
  - replace i with (Datatypes.S s0 + (i - Datatypes.S s0))%nat by lia. rewrite <- skipn_nth. apply nth_In. rewrite skipn_length. lia.
  - rewrite <- (firstn_nth c (length c - Datatypes.S s1)) by lia.
    replace i with (Datatypes.S s0 + (i - Datatypes.S s0))%nat by lia. rewrite <- skipn_nth. apply nth_In.
    rewrite skipn_length, firstn_length. lia.
Qed.
Lemma kept_all_in : forall skip c v, In v (kept skip c) -> In v c.
Proof.
  intros [[s0 s1]|] c v H; [|exact H].
  assert (SK : forall k (l : list R), In v (skipn k l) -> In v l).
  { induction k as [|k IH]; intros [|a l] K; cbn in K; auto. right. apply IH, K. }
  assert (FN : forall k (l : list R), In v (firstn k l) -> In v l).
  { induction k as [|k IH]; intros [|a l] K; cbn in K; auto; try contradiction. destruct K; [left; auto|right; apply IH; auto]. }
  destruct s0, s1; cbn [kept] in H; [contradiction| | |].
  - apply FN in H. exact H.
  - apply SK in H. exact H.
  - apply SK in H. apply FN in H. exact H.
Qed.

(* away from the ends the kept coefficients decide *)
Theorem skip_bounds : forall s0 s1 s lo hi x, on_unit s -> (0 < s0 + s1)%nat -> (s0 + s1 < length (coeffs s))%nat ->
  admitted_by lo hi (kept (Some (s0, s1)) (coeffs s)) -> 0 <= x <= 1 ->
  (s0 = 0%nat \/ nth (s0 + degree (sbasis s)) (knots (sbasis s)) 0 < x) ->
  (s1 = 0%nat \/ x <= nth (length (coeffs s) - s1) (knots (sbasis s)) 0) ->
  match lo with None => True | Some b => b <= call s x end /\ call s x <= hi.
Proof.
  intros s0 s1 s lo hi x U P N A I L0 L1. destruct U as [C Z].
  set (b := sbasis s) in *. set (c := coeffs s) in *. set (n := length c) in *.
  assert (SZ : n = (length (knots b) - degree b - 1)%nat) by exact Z.
  pose proof C as ((ND & LEN) & CL & E1 & E2).
  destruct (Req_EM_T x 0) as [X0|X0].
  { destruct L0 as [L0|L0].
    - assert (V : call s x = nth 0 c 0).
      { pose proof (call_left_end s (conj ND LEN) Z (proj1 CL) (proj1 (proj2 (proj2 CL)))) as K. fold b c in K. rewrite E1 in K. rewrite X0. exact K. }
      rewrite V. apply A. apply kept_in; fold n; lia.
    - assert (nth 0 (knots b) 0 <= nth (s0 + degree b) (knots b) 0) by (apply ND; lia). rewrite E1 in H. lra. }
  set (m := nth s0 c 0).
  set (f := fun i => if (s0 <=? i)%nat && (i + s1 <? n)%nat then nth i c 0 else m).
  set (c' := map f (seq 0 n)).
  assert (LC' : length c' = n) by (unfold c'; rewrite map_length, seq_length; reflexivity).
  assert (NC' : forall i, (i < n)%nat -> nth i c' 0 = f i).
  { intros i Hi. unfold c'. rewrite nth_indep with (d' := f 0%nat) by (rewrite map_length, seq_length; exact Hi).
    rewrite map_nth, seq_nth by exact Hi. reflexivity. }
  assert (EQ : call s x = call (mkS b c') x).
  { unfold call. cbn [sbasis coeffs]. fold b c. apply dot_agree; [rewrite LC'; reflexivity|]. intros i Hi. fold n in Hi.
    rewrite (NC' i Hi). unfold f. destruct ((s0 <=? i)%nat && (i + s1 <? n)%nat) eqn:Q; [right; reflexivity|].
    left. destruct (active_exists b x (conj ND LEN) (clamped_in _ _ _ _ C I)) as [J AJ].
    destruct (Req_EM_T (nth i (eval_basis b x) 0) 0) as [Z0|NZ]; [exact Z0|]. exfalso.
    assert (IB : (i < blen b)%nat) by (unfold blen; lia).
    pose proof (eval_supported b x J i (conj ND LEN) AJ IB NZ) as (S1 & S2).
    destruct AJ as (J1 & J2 & J3 & J4). unfold kn in *.
    apply andb_false_iff in Q. destruct Q as [Q|Q].
    - apply Nat.leb_gt in Q. destruct L0 as [L0|L0]; [lia|].
      destruct J4 as [[_ J4]|(J4 & _ & _)].
      + assert (nth (J + 1) (knots b) 0 <= nth (s0 + degree b) (knots b) 0) by (apply ND; lia). lra.
      + assert (nth J (knots b) 0 <= nth (s0 + degree b) (knots b) 0) by (apply ND; lia). lra.
    - apply Nat.ltb_ge in Q. destruct L1 as [L1|L1]; [lia|].
      destruct J4 as [[J4 _]|(J4 & J5 & J6)]; [|rewrite <- J5, E1 in J4; lra].
      assert (nth (n - s1) (knots b) 0 <= nth J (knots b) 0) by (apply ND; lia). lra. }
  assert (FI : forall v, In v c' -> In v (kept (Some (s0, s1)) c)).
  { intros v Hv. unfold c' in Hv. apply in_map_iff in Hv as (i & <- & Hi). apply in_seq in Hi. unfold f.
    destruct ((s0 <=? i)%nat && (i + s1 <? n)%nat) eqn:Q.
    - apply andb_true_iff in Q. destruct Q as [Q1 Q2]. apply Nat.leb_le in Q1. apply Nat.ltb_lt in Q2. apply kept_in; auto.
    - unfold m. apply kept_in; fold n; lia. }
  rewrite EQ. apply (coeff_bounds lo hi (mkS b c') x).
  - split; [exact C|]. unfold sized. cbn [sbasis coeffs]. rewrite LC'. exact SZ.
  - exact I.
  - intros v Hv. apply A, FI, Hv.
Qed.

(* skip with two zeros constrains nothing *)
Lemma skip_nothing : forall c, kept (Some (0, 0)%nat) c = [].
Proof. reflexivity. Qed.

(* constraints of a whole list, with skipped coefficients *)
Theorem lift_skip : forall s0 s1 tol X cs x, 0 <= tol -> (0 < s0 + s1)%nat -> 0 <= x <= 1 ->
  (forall c, In c cs -> fits X (cexpr c) /\ mentions (cexpr c) = true /\ plain (cexpr c) = true) ->
  solved_skip (Some (s0, s1)) tol X cs ->
  (forall c s, In c cs -> build tol X (cexpr c) = Some (Spl s) ->
     (s0 + s1 < length (coeffs s))%nat /\
     (s0 = 0%nat \/ nth (s0 + degree (sbasis s)) (knots (sbasis s)) 0 < x) /\
     (s1 = 0%nat \/ x <= nth (length (coeffs s) - s1) (knots (sbasis s)) 0)) ->
  holds (jets X x) cs.
Proof.
  intros s0 s1 tol X cs x T P I F S W c Hc. destruct (F c Hc) as (Fc & M & PL).
  destruct (S c Hc) as (o & B & A). destruct (build_good _ _ _ _ Fc B) as [G K]. rewrite M in K.
  destruct o as [r|s]; [discriminate|]. destruct (W c s Hc B) as (W1 & W2 & W3).
  pose proof (build_close _ _ _ _ x T Fc I B) as D. rewrite (drift_plain tol X _ Fc PL) in D. cbn [val] in D.
  apply close_0 in D. rewrite <- D. apply (skip_bounds s0 s1); auto.
Qed.

(* a dropped coefficient can break the bound near the end *)
Theorem skip_refuted : exists X x, on_unit (X 0%nat) /\ 0 <= x <= 1 /\
  solved_skip (Some (1, 0)%nat) code_tol X [le0 (SV 0 0)] /\ ~ holds (jets X x) [le0 (SV 0 0)].
Proof.
  exists (fun _ => mkS lbasis [5; 0]), 0. split; [split; [exact lbasis_clamped|reflexivity]|]. split; [lra|]. split.
  - intros c [<-|[]]. exists (Spl (mkS lbasis [5; 0])). split; [reflexivity|]. intros v Hv. cbn in Hv.
    destruct Hv as [<-|[]]. split; [exact Logic.I|cbn; lra].
  - intros H. destruct (H _ (or_introl eq_refl)) as [_ U]. cbn [le0 cexpr sval chi] in U. unfold jets in U. cbn [derivative] in U.
    rewrite line_call in U by lra. lra.
Qed.
(* two zeros: nothing is kept *)
Theorem skip_zero_refuted : exists X x, on_unit (X 0%nat) /\ 0 <= x <= 1 /\
  solved_skip (Some (0, 0)%nat) code_tol X [le0 (SV 0 0)] /\ ~ holds (jets X x) [le0 (SV 0 0)].
Proof.
  exists (fun _ => mkS lbasis [5; 5]), 0. split; [split; [exact lbasis_clamped|reflexivity]|]. split; [lra|]. split.
  - intros c [<-|[]]. exists (Spl (mkS lbasis [5; 5])). split; [reflexivity|]. intros v Hv. cbn in Hv. contradiction.
  - intros H. destruct (H _ (or_introl eq_refl)) as [_ U]. cbn [le0 cexpr sval chi] in U. unfold jets in U. cbn [derivative] in U.
    rewrite line_call in U by lra. lra.
Qed.
(* a constraint between numbers is not enforced *)
Theorem number_ignored : forall tol X r hi, solved tol X [Con (SN r) None hi].
Proof. intros tol X r hi c [<-|[]]. exists (Num r). split; [reflexivity|]. intros v []. Qed.
Theorem number_refuted : exists X c, solved code_tol X [c] /\ forall x, ~ holds (jets X x) [c].
Proof.
  exists (fun _ => mkS lbasis [0; 0]), (le0 (SN 1)). split; [apply number_ignored|].
  intros x H. destruct (H _ (or_introl eq_refl)) as [_ U]. cbn in U. lra.
Qed.
(* the coefficients can be out of bounds although all values are within *)
Theorem stricter_refuted : exists X, on_unit (X 0%nat) /\ ~ solved code_tol X [le0 (SV 0 0)] /\
  forall x, 0 <= x <= 1 -> holds (jets X x) [le0 (SV 0 0)].
Proof.
  exists (fun _ => mkS obasis [-1; 1; -1]). split; [split; [exact obasis_clamped|reflexivity]|]. split.
  - intros H. destruct (H _ (or_introl eq_refl)) as (o & B & A). cbn in B. injection B as <-.
    destruct (A 1) as [_ U]; [cbn; tauto|]. cbn in U. lra.
  - intros x I c [<-|[]]. split; [exact Logic.I|]. cbn [le0 cexpr sval chi]. unfold jets. cbn [derivative].
    unfold call. cbn [sbasis coeffs]. rewrite obasis_eval by exact I. cbn [dot].
    pose proof (pow2_ge_0 (1 - 2 * x)). lra.
Qed.
