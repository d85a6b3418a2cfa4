(** A spline seen on a finer knot vector: the pieces of a spline, indexed by
    the intervals of another knot vector that contains its knots.  Pure
    mathematics; no model code. *)
From Coq Require Import Reals Lra Lia List Permutation Arith.
From Verif Require Import Blossom Spline_Model Spline_Spec Spline_Proofs Spline_Proofs2 Span_Proofs.
Import ListNotations.
Local Open Scope R_scope.

(** number of times t occurs *)
Definition cnt (l : list R) (t : R) : nat := count_occ Req_EM_T l t.
(** number of entries below x *)
Definition below (l : list R) (x : R) : nat := length (filter (fun k => Rltb k x) l).
(** number of the interval of b that ends at or after x *)
Definition idx (b : bbasis) (x : R) : nat := (below (knots b) x - 1)%nat.

(** b has all knots of b1 inside its domain, each at least r times more often *)
Definition refines (b b1 : bbasis) (r : nat) : Prop :=
  dom_left b1 <= dom_left b /\ dom_right b <= dom_right b1 /\
  forall t, dom_left b < t < dom_right b -> In t (knots b1) ->
    (cnt (knots b1) t + r <= cnt (knots b) t)%nat.

Lemma below_le : forall l x, (below l x <= length l)%nat.
Proof. unfold below. induction l; intros; simpl; [lia|]. destruct (Rltb a x); simpl; specialize (IHl x); lia. Qed.

Lemma nondecreasing_tail : forall a l, nondecreasing (a :: l) -> nondecreasing l.
Proof. intros a l H i j Hi Hj. apply (H (S i) (S j)); simpl; lia. Qed.

Lemma sorted_below : forall l x i, nondecreasing l -> (i < length l)%nat ->
  (nth i l 0 < x <-> (i < below l x)%nat).
Proof.
  induction l as [|a l IH]; intros x i ND Hi; simpl in Hi; [lia|].
  pose proof (nondecreasing_tail _ _ ND) as ND'.
  unfold below. simpl filter. destruct (Rltb a x) eqn:E.
  - apply Rltb_true in E. simpl length. destruct i as [|i]; simpl nth.
    + split; [lia|intros; exact E].
    + fold (below l x). rewrite (IH x i ND') by lia. lia.
  - apply Rltb_false in E. fold (below l x).
    assert (Z : below l x = 0%nat).
    { destruct (below l x) eqn:Z; [reflexivity|]. exfalso.
      pose proof (below_le l x).
      assert (nth 0 l 0 < x) by (apply IH; [exact ND'|lia|lia]).
      pose proof (ND 0%nat 1%nat ltac:(lia) ltac:(simpl; lia)). simpl in H1. destruct l; simpl in *; lra. }
    rewrite Z. split; [|lia]. intros H.
    pose proof (ND 0%nat i ltac:(lia) ltac:(simpl; lia)). simpl in H0.
    simpl in H. lra.
Qed.

Lemma below_next : forall l t y, t < y -> (forall u, In u l -> ~ (t < u < y)) ->
  below l y = (below l t + cnt l t)%nat.
Proof.
  unfold below, cnt. induction l as [|a l IH]; intros t y L H; [reflexivity|].
  simpl. specialize (IH t y L (fun u Hu => H u (or_intror Hu))).
  destruct (Rltb a y) eqn:E1; destruct (Rltb a t) eqn:E2; destruct (Req_EM_T a t) as [E3|E3];
    try apply Rltb_true in E1; try apply Rltb_false in E1;
    try apply Rltb_true in E2; try apply Rltb_false in E2; simpl length; try lia; exfalso; try lra.
  apply (H a (or_introl eq_refl)). lra.
Qed.

Lemma in_cnt : forall l t, In t l <-> (0 < cnt l t)%nat.
Proof. intros. unfold cnt. rewrite (count_occ_In Req_EM_T). unfold gt. reflexivity. Qed.

Lemma idx_spec : forall b x J, nondecreasing (knots b) -> (J + 1 < length (knots b))%nat ->
  kn b J < x <= kn b (J + 1) -> idx b x = J.
Proof.
  intros b x J ND L [H1 H2]. unfold idx.
  assert (A : (J < below (knots b) x)%nat) by (apply (sorted_below (knots b) x J ND); [lia|exact H1]).
  assert (B : ~ (J + 1 < below (knots b) x)%nat).
  { intros B. apply (sorted_below (knots b) x (J + 1) ND) in B; [|lia]. fold (kn b (J + 1)) in B. lra. }
  lia.
Qed.

Lemma actint_bounds : forall b J, nondecreasing (knots b) -> actint b J ->
  dom_left b <= kn b J /\ kn b (J + 1) <= dom_right b.
Proof.
  intros b J ND [A [B C]]. unfold dom_left, dom_right, kn. split; apply ND; lia.
Qed.

Lemma kn_in : forall b i, (i < length (knots b))%nat -> In (kn b i) (knots b).
Proof. intros. unfold kn. apply nth_In. assumption. Qed.

Lemma no_knot_between : forall b J u, nondecreasing (knots b) -> (J + 1 < length (knots b))%nat ->
  In u (knots b) -> ~ (kn b J < u < kn b (J + 1)).
Proof.
  intros b J u ND L I [H1 H2]. destruct (In_nth _ _ 0 I) as [i [Hi E]].
  destruct (le_lt_dec i J) as [C|C].
  - pose proof (ND i J C ltac:(lia)) as H. fold (kn b J) in H. lra.
  - pose proof (ND (J + 1)%nat i ltac:(lia) Hi) as H. fold (kn b (J + 1)) in H. lra.
Qed.

Section Refined.
Variables (b b1 : bbasis) (r : nat).
Hypothesis ND : nondecreasing (knots b).
Hypothesis WF1 : well_formed b1.
Hypothesis RF : refines b b1 r.

Lemma refined_gap : forall J u, actint b J -> In u (knots b1) -> ~ (kn b J < u < kn b (J + 1)).
Proof.
  intros J u A I H. destruct (actint_bounds b J ND A) as [B1 B2].
  destruct RF as [_ [_ R3]].
  apply (no_knot_between b J u ND); [destruct A; lia| |exact H].
  apply in_cnt. assert ((0 < cnt (knots b1) u)%nat) by (apply in_cnt; exact I).
  specialize (R3 u ltac:(lra) I). lia.
Qed.

Lemma refined_bracket : forall J, actint b J ->
  let J1 := idx b1 (kn b (J + 1)) in
  actint b1 J1 /\ kn b1 J1 <= kn b J /\ kn b (J + 1) <= kn b1 (J1 + 1).
Proof.
  intros J A J1. destruct (actint_bounds b J ND A) as [B1 B2].
  destruct RF as [R1 [R2 R3]]. destruct WF1 as [ND1 LE1]. pose proof A as [A1 [A2 A3]].
  destruct (active_exists b1 (kn b (J + 1)) WF1) as [K AK].
  { left. lra. }
  assert (HK : kn b1 K < kn b (J + 1) <= kn b1 (K + 1)).
  { destruct AK as [K1 [K2 [K3 [K4|[K4 [K5 K6]]]]]]; [exact K4|]. exfalso.
    change (dom_left b1) with (kn b1 (degree b1)) in R1. subst K. lra. }
  assert (E : J1 = K).
  { unfold J1. apply idx_spec; auto. destruct AK as [K1 [K2 _]]. lia. }
  rewrite E. split; [apply (actint_active b1 (kn b (J + 1))); exact AK|]. split; [|apply HK].
  destruct (Rle_lt_dec (kn b1 K) (kn b J)) as [G|G]; [exact G|]. exfalso.
  apply (refined_gap J (kn b1 K) A); [|lra]. apply kn_in. destruct AK as [K1 [K2 _]]. lia.
Qed.

Lemma refined_active : forall x J, active b x J -> in_domain b1 x ->
  (dom_left b < x \/ x = dom_left b1) -> active b1 x (idx b1 (kn b (J + 1))).
Proof.
  intros x J A ID HX. pose proof (refined_bracket J (actint_active b x J A)) as RB. cbv zeta in RB.
  set (J1 := idx b1 (kn b (J + 1))) in *. destruct RB as [[C1 [C2 C3]] [C4 C5]].
  destruct A as [A1 [A2 [A3 A4]]].
  split; [exact C1|]. split; [exact C2|]. split; [exact C3|].
  assert (H : kn b J < x \/ (x = kn b J /\ x = dom_left b1)).
  { destruct A4 as [A4|[A4 [A5 A6]]]; [left; lra|].
    destruct HX as [HX|HX]; [|right; split; assumption].
    exfalso. change (dom_left b) with (kn b (degree b)) in HX. subst J. lra. }
  assert (X2 : x <= kn b (J + 1)) by (destruct A4 as [A4|[A4 _]]; lra).
  destruct H as [H|[H1 H2]]; [left; lra|].
  right. destruct ID as [ID|[I1 [I2 I3]]]; [lra|].
  destruct WF1 as [ND1 LE1].
  assert (E : J1 = degree b1).
  { assert (G : kn b (J + 1) <= kn b1 (degree b1 + 1)).
    { destruct (Rle_lt_dec (kn b (J + 1)) (kn b1 (degree b1 + 1))) as [G|G]; [exact G|]. exfalso.
      apply (refined_gap J (kn b1 (degree b1 + 1))).
      - split; [exact A1|split; assumption].
      - apply kn_in. lia.
      - unfold kn at 2 in G. unfold kn at 2 4. rewrite I2 in *. unfold kn in *. lra. }
    unfold J1. apply idx_spec; auto; [lia|]. split; [|exact G].
    unfold dom_left in I2. fold (kn b1 (degree b1)) in I2. lra. }
  rewrite E. unfold dom_left in I2. split; [exact I2|]. split; [|reflexivity].
  unfold kn. rewrite <- I1. exact I2.
Qed.

Lemma neighbour_count : forall J m t, neighbours b J m t -> cnt (knots b) t = m.
Proof.
  intros J m t [A [A' [M1 M2]]].
  pose proof A as [A1 [A2 A3]]. pose proof A' as [B1 [B2 B3]].
  rewrite (M2 (J + m)%nat) in B3 by lia. rewrite (M2 (J + 1)%nat) in A3 by lia.
  assert (N : below (knots b) (kn b (J + m + 1)) = (below (knots b) t + cnt (knots b) t)%nat).
  { apply below_next; [exact B3|]. intros u I. rewrite <- (M2 (J + m)%nat) by lia.
    apply no_knot_between; auto. lia. }
  assert (E1 : idx b t = J).
  { apply idx_spec; auto; [lia|]. rewrite (M2 (J + 1)%nat) by lia. lra. }
  assert (E2 : idx b (kn b (J + m + 1)) = (J + m)%nat).
  { apply idx_spec; auto; [lia|]. rewrite (M2 (J + m)%nat) by lia. lra. }
  unfold idx in E1, E2.
  assert ((J < below (knots b) t)%nat).
  { apply (sorted_below (knots b) t J ND); [lia|]. exact A3. }
  lia.
Qed.

Lemma refined_slack : forall s, sbasis s = b1 -> sized s ->
  slack b (degree b1) r (fun J => piece (degree b1) (kn b1) (cf s) (idx b1 (kn b (J + 1)))).
Proof.
  intros s ES SZ. split.
  - intros J A. destruct (refined_bracket J A) as [A1 _]. apply piece_symaff.
    + apply A1.
    + apply actint_pos; [apply WF1|exact A1].
  - intros J m t NB. pose proof (neighbour_count J m t NB) as NC.
    destruct NB as [A [A' [M1 M2]]].
    pose proof (M2 (J + 1)%nat ltac:(lia)) as T1. pose proof (M2 (J + m)%nat ltac:(lia)) as T2.
    pose proof (refined_bracket J A) as B1. pose proof (refined_bracket (J + m) A') as B2.
    cbv zeta in B1, B2. rewrite T1 in *. rewrite T2 in B2.
    set (y := kn b (J + m + 1)) in *. set (J1 := idx b1 t) in *. set (K1 := idx b1 y) in *.
    destruct WF1 as [ND1 LE1].
    assert (LT : kn b J < t) by (destruct A as [_ [_ A]]; rewrite T1 in A; exact A).
    assert (LY : t < y) by (destruct A' as [_ [_ A'']]; rewrite T2 in A''; exact A'').
    assert (GAP : forall u, In u (knots b1) -> ~ (t < u < y)).
    { intros u I. pose proof (refined_gap (J + m) u A' I) as G. rewrite T2 in G. exact G. }
    pose proof (below_next (knots b1) t y LY GAP) as BN.
    assert (EJ : K1 = (J1 + cnt (knots b1) t)%nat).
    { unfold K1, J1, idx. 
      assert ((J1 < below (knots b1) t)%nat).
      { apply sorted_below; auto; [destruct B1 as [[_ [B1 _]] _]; lia|]. fold (kn b1 J1). lra. }
      lia. }
    destruct (Nat.eq_dec (cnt (knots b1) t) 0) as [Z|Z].
    + left. intros vs L. rewrite EJ, Z, Nat.add_0_r. reflexivity.
    + right. exists (cnt (knots b1) t). split.
      * destruct RF as [_ [_ R3]]. rewrite <- NC. apply R3.
        -- destruct (actint_bounds b J ND A) as [Q1 _]. destruct (actint_bounds b (J + m) ND A') as [_ Q2].
           fold y in Q2. lra.
        -- apply in_cnt. lia.
      * intros vs L. rewrite EJ. apply adjacent_pieces; auto.
        -- apply B1.
        -- apply actint_pos; [exact ND1|apply B1].
        -- rewrite <- EJ. apply actint_pos; [exact ND1|apply B2].
        -- intros j Hj.
           assert (JL : (J1 < below (knots b1) t)%nat).
           { apply sorted_below; auto; [destruct B1 as [[_ [B1 _]] _]; lia|]. fold (kn b1 J1). lra. }
           assert (JE : below (knots b1) t = (J1 + 1)%nat) by (unfold J1 in *; unfold idx in *; lia).
           assert (LJ : (j < length (knots b1))%nat).
           { destruct B2 as [[_ [B2 _]] _]. lia. }
           assert (U : kn b1 j < y) by (apply (sorted_below (knots b1) y j ND1 LJ); lia).
           assert (V : ~ kn b1 j < t).
           { intros V. apply (sorted_below (knots b1) t j ND1 LJ) in V. lia. }
           destruct (Req_dec (kn b1 j) t) as [E|E]; [exact E|]. exfalso.
           apply (GAP (kn b1 j)); [apply kn_in; exact LJ|lra].
Qed.

Lemma refined_value : forall s x J, sbasis s = b1 -> sized s -> active b x J -> in_domain b1 x ->
  (dom_left b < x \/ x = dom_left b1) ->
  call s x = piece (degree b1) (kn b1) (cf s) (idx b1 (kn b (J + 1))) (repeat x (degree b1)).
Proof.
  intros s x J ES SZ A ID HX. pose proof (refined_active x J A ID HX) as RA. destruct WF1 as [N1 _].
  rewrite <- ES in *. apply call_piece; auto.
Qed.
End Refined.

(** product of two splines on a common refinement *)
Theorem represent_product : forall b s1 s2, nondecreasing (knots b) ->
  well_formed (sbasis s1) -> well_formed (sbasis s2) -> sized s1 -> sized s2 ->
  degree b = (degree (sbasis s1) + degree (sbasis s2))%nat ->
  refines b (sbasis s1) (degree (sbasis s2)) -> refines b (sbasis s2) (degree (sbasis s1)) ->
  exists c, length c = blen b /\
    forall x J, active b x J -> in_domain (sbasis s1) x -> in_domain (sbasis s2) x ->
      (dom_left b < x \/ (x = dom_left (sbasis s1) /\ x = dom_left (sbasis s2))) ->
      call (mkS b c) x = call s1 x * call s2 x.
Proof.
  intros b s1 s2 ND W1 W2 Z1 Z2 E R1 R2.
  set (F := fun J => piece (degree (sbasis s1)) (kn (sbasis s1)) (cf s1) (idx (sbasis s1) (kn b (J + 1)))).
  set (G := fun J => piece (degree (sbasis s2)) (kn (sbasis s2)) (cf s2) (idx (sbasis s2) (kn b (J + 1)))).
  pose proof (refined_slack b _ _ ND W1 R1 s1 eq_refl Z1) as SF.
  pose proof (refined_slack b _ _ ND W2 R2 s2 eq_refl Z2) as SG.
  pose proof (joins_prod b _ _ F G SF SG) as J. rewrite <- E in J.
  exists (span_coeffs b (fun J => prodform (degree (sbasis s1)) (degree (sbasis s2)) (F J) (G J))).
  split; [apply span_sized|].
  intros x K A I1 I2 HX.
  rewrite (span_call b _ x K ND J A). rewrite E. rewrite prodform_diag.
  rewrite (refined_value b _ _ ND W1 R1 s1 x K) by (auto; tauto).
  rewrite (refined_value b _ _ ND W2 R2 s2 x K) by (auto; tauto).
  reflexivity.
Qed.

(** one spline on a refinement of higher or equal degree *)
Theorem represent_one : forall b s1, nondecreasing (knots b) ->
  well_formed (sbasis s1) -> sized s1 -> (degree (sbasis s1) <= degree b)%nat ->
  refines b (sbasis s1) (degree b - degree (sbasis s1)) ->
  exists c, length c = blen b /\
    forall x J, active b x J -> in_domain (sbasis s1) x ->
      (dom_left b < x \/ x = dom_left (sbasis s1)) ->
      call (mkS b c) x = call s1 x.
Proof.
  intros b s1 ND W1 Z1 E R1.
  set (F := fun J => piece (degree (sbasis s1)) (kn (sbasis s1)) (cf s1) (idx (sbasis s1) (kn b (J + 1)))).
  pose proof (refined_slack b _ _ ND W1 R1 s1 eq_refl Z1) as SF.
  pose proof (joins_prod b _ _ F (fun _ _ => 1) SF (slack_const b _ _ 1)) as J.
  replace (degree (sbasis s1) + (degree b - degree (sbasis s1)))%nat with (degree b) in J by lia.
  exists (span_coeffs b (fun J => prodform (degree (sbasis s1)) (degree b - degree (sbasis s1)) (F J) (fun _ => 1))).
  split; [apply span_sized|].
  intros x K A I1 HX.
  rewrite (span_call b _ x K ND J A).
  replace (degree b) with (degree (sbasis s1) + (degree b - degree (sbasis s1)))%nat at 2 by lia.
  rewrite prodform_diag.
  rewrite (refined_value b _ _ ND W1 R1 s1 x K) by auto.
  unfold F. ring.
Qed.
