(** Final statements for the spline properties C01 - C07, C10.  Proofs are in
    Spline_Proofs*.v; every theorem is followed by a concrete example meeting
    its hypotheses and by Print Assumptions. *)
From Coq Require Import Reals Lra Lia List Arith Bool Permutation.
From Verif Require Import Blossom Spline_Model Spline_Spec Spline_Proofs Spline_Proofs2
  Spline_Proofs3 Spline_Proofs4 Spline_Proofs5.
Import ListNotations.
Local Open Scope R_scope.

(** example data: degree 2, clamped on [0,2], one interior knot *)
Definition bex : bbasis := mkB [0; 0; 0; 1; 2; 2; 2] 2.
Definition sex : bspline := mkS bex [1; 3; 2; 5].

Ltac sorted_tac :=
  repeat match goal with
  | |- nondecreasing (_ :: _) => apply nondecreasing_cons; split;
    [simpl; intros ? ?; repeat (match goal with H : _ \/ _ |- _ => destruct H end); subst; try lra; try contradiction|]
  end;
  intros ? ? ? ?; simpl in *; lia.

Lemma bex_wf : well_formed bex.
Proof. split; [|simpl; lia]. unfold bex. simpl. sorted_tac. Qed.
Lemma sex_sized : sized sex.
Proof. reflexivity. Qed.
Lemma bex_dom : forall x, 0 <= x <= 2 -> in_domain bex x.
Proof.
  intros x H. unfold in_domain, dom_left, dom_right, bex. simpl.
  destruct (Req_dec x 0); [right|left]; lra.
Qed.
Lemma bex_clamped : clamped bex.
Proof. unfold clamped, bex. simpl. lra. Qed.
Ltac idx_tac i H := do 8 (try (destruct i as [|i]; [simpl in *; try lra; try lia|])); simpl in H; try lia.
Lemma bex_spans : spans_positive bex.
Proof. intros i Hi Hl. unfold bex in *. simpl in *. idx_tac i Hl. Qed.
Lemma bex_supports : supports_positive bex.
Proof. intros i Hl. unfold bex in *. simpl in *. idx_tac i Hl. Qed.
Lemma bex_mult : forall x, mult_le bex x 2 \/ x = 0 \/ x = 2.
Proof.
  intros x. destruct (Req_dec x 0); auto. destruct (Req_dec x 2); auto. left.
  intros i Hi [E1 E2]. unfold bex in *. simpl in *. idx_tac i Hi.
Qed.
Lemma bex_mult1 : mult_le bex 1 1.
Proof. intros i Hi [E1 E2]. unfold bex in *. simpl in *. idx_tac i Hi. Qed.

(** ** C01 *)
Theorem C01_partition_of_unity : forall b x, well_formed b -> in_domain b x ->
  total (eval_basis b x) = 1 /\ (forall v, In v (eval_basis b x) -> 0 <= v <= 1).
Proof. intros b x W D. split; [exact (partition_of_unity b x W D)|intros v; exact (basis_nonneg b x v W D)]. Qed.
Example C01_example : well_formed bex /\ in_domain bex 0 /\ in_domain bex (1/2) /\ in_domain bex 1 /\ in_domain bex 2.
Proof. split; [apply bex_wf|]. repeat split; apply bex_dom; lra. Qed.
Print Assumptions C01_partition_of_unity.

Theorem C01_local_support : forall b x i, nondecreasing (knots b) ->
  (i + degree b + 1 < length (knots b))%nat ->
  (x < nth i (knots b) 0 \/ nth (i + degree b + 1) (knots b) 0 < x) ->
  nth i (eval_basis b x) 0 = 0.
Proof. exact local_support. Qed.
Example C01_support_example : nth 0 (eval_basis bex (3/2)) 0 = 0.
Proof.
  apply C01_local_support; [apply bex_wf|simpl; lia|]. right. simpl. lra.
Qed.
Print Assumptions C01_local_support.

(** outside of the knot range every spline evaluates to zero *)
Theorem C01_zero_outside : forall s x, nondecreasing (knots (sbasis s)) -> sized s ->
  (x < nth 0 (knots (sbasis s)) 0 \/
   nth (length (knots (sbasis s)) - 1) (knots (sbasis s)) 0 < x) ->
  call s x = 0.
Proof. exact call_outside. Qed.
Example C01_zero_outside_example : call sex 3 = 0.
Proof. apply C01_zero_outside; [apply bex_wf|apply sex_sized|right; simpl; lra]. Qed.
Print Assumptions C01_zero_outside.

(** the domain condition on the left end is needed: with one repetition too
    many (degree+2 equal first knots) all basis functions vanish there *)
Definition bover : bbasis := mkB [0; 0; 0; 1; 1; 1] 1.
Theorem C01_overclamped_refuted :
  exists b, well_formed b /\ total (eval_basis b (nth 0 (knots b) 0)) = 0.
Proof.
  exists bover. split.
  - split; [unfold bover; simpl; sorted_tac|simpl; lia].
  - unfold eval_basis, bover. cbn -[Rmult Rplus Rminus Rdiv].
    unfold next_row, ind, kn. cbn -[Rmult Rplus Rminus Rdiv].
    repeat match goal with
    | |- context [Reqb ?a ?c] =>
        first [replace (Reqb a c) with true by (symmetry; apply Reqb_true; lra)
              |replace (Reqb a c) with false by (symmetry; apply Reqb_false; lra)]
    | |- context [Rleb ?a ?c] =>
        first [replace (Rleb a c) with true by (symmetry; apply Rleb_true; lra)
              |replace (Rleb a c) with false by (symmetry; apply Rleb_false; lra)]
    | |- context [Rltb ?a ?c] =>
        first [replace (Rltb a c) with true by (symmetry; apply Rltb_true; lra)
              |replace (Rltb a c) with false by (symmetry; apply Rltb_false; lra)]
    end.
    cbn -[Rmult Rplus Rminus Rdiv]. unfold total. cbn -[Rmult Rplus Rminus Rdiv]. lra.
Qed.
Print Assumptions C01_overclamped_refuted.

(** ** C02 *)
Theorem C02_convex_hull : forall s x lo hi, well_formed (sbasis s) -> sized s ->
  in_domain (sbasis s) x -> (forall c, In c (coeffs s) -> lo <= c <= hi) ->
  lo <= call s x <= hi.
Proof. exact call_hull. Qed.
Example C02_example : 1 <= call sex (3/2) <= 5.
Proof.
  apply C02_convex_hull; [apply bex_wf|apply sex_sized|apply bex_dom; lra|].
  simpl. intros c H. repeat (destruct H as [<-|H]; [lra|]). contradiction.
Qed.
Print Assumptions C02_convex_hull.

(** ** C03 *)
Theorem C03_add : forall s1 s2 x, sbasis s1 = sbasis s2 -> sized s1 -> sized s2 ->
  call (add_same s1 s2) x = call s1 x + call s2 x.
Proof. exact add_same_call. Qed.
Example C03_add_example : sbasis sex = sbasis (mkS bex [0; 1; 0; 7]) /\ sized (mkS bex [0; 1; 0; 7]).
Proof. split; reflexivity. Qed.
Print Assumptions C03_add.
Theorem C03_sub : forall s1 s2 x, sbasis s1 = sbasis s2 -> sized s1 -> sized s2 ->
  call (sub_same s1 s2) x = call s1 x - call s2 x.
Proof. exact sub_same_call. Qed.
Print Assumptions C03_sub.
Theorem C03_neg : forall s x, call (neg s) x = - call s x.
Proof. exact neg_call. Qed.
Print Assumptions C03_neg.
Theorem C03_scal : forall s a x, call (mul_num s a) x = a * call s x.
Proof. exact mul_num_call. Qed.
Print Assumptions C03_scal.
Theorem C03_add_number : forall s a x, well_formed (sbasis s) -> sized s -> in_domain (sbasis s) x ->
  call (add_num s a) x = call s x + a.
Proof. exact add_num_call. Qed.
Example C03_add_number_example : call (add_num sex 4) 2 = call sex 2 + 4.
Proof. apply C03_add_number; [apply bex_wf|apply sex_sized|apply bex_dom; lra]. Qed.
Print Assumptions C03_add_number.
(** the symbolic evaluation agrees with the numeric one *)
Theorem C03_evalspline : forall s x, sized s -> evalspline s x = call s x.
Proof. exact evalspline_call. Qed.
Print Assumptions C03_evalspline.

(** ** C04 *)
Theorem C04_derivative : forall s o x, well_formed (sbasis s) -> sized s ->
  spans_positive (sbasis s) ->
  (o < degree (sbasis s))%nat ->
  dom_left (sbasis s) < x < dom_right (sbasis s) ->
  mult_le (sbasis s) x (degree (sbasis s) - o - 1) ->
  derivable_pt_lim (call (derivative s o)) x (call (derivative s (S o)) x).
Proof. intros s o x W Z _. exact (derivative_correct s o x W Z). Qed.
(** also at the interior knot x = 1, where it has multiplicity one *)
Example C04_example : derivable_pt_lim (call sex) 1 (call (derivative sex 1) 1).
Proof.
  apply (C04_derivative sex 0 1); try apply bex_wf; try apply sex_sized; try apply bex_spans.
  - simpl. lia.
  - unfold dom_left, dom_right, sex, bex. simpl. lra.
  - apply bex_mult1.
Qed.
Print Assumptions C04_derivative.
Theorem C04_continuous : forall s x, well_formed (sbasis s) -> sized s ->
  dom_left (sbasis s) < x < dom_right (sbasis s) ->
  mult_le (sbasis s) x (degree (sbasis s)) -> continuity_pt (call s) x.
Proof. exact call_continuous. Qed.
Print Assumptions C04_continuous.
Theorem C04_shape : forall s, sized s -> well_formed (sbasis s) -> (1 <= degree (sbasis s))%nat ->
  degree (sbasis (derivative s 1)) = (degree (sbasis s) - 1)%nat /\
  knots (sbasis (derivative s 1)) = removelast (tl (knots (sbasis s))) /\
  sized (derivative s 1).
Proof.
  intros s Z W D. split; [reflexivity|]. split; [apply deriv1_knots|apply deriv1_sized; auto].
Qed.
Print Assumptions C04_shape.
(** clamped splines start and end at their first and last coefficient *)
Theorem C04_end_values : forall s, well_formed (sbasis s) -> sized s -> clamped (sbasis s) ->
  call s (nth 0 (knots (sbasis s)) 0) = nth 0 (coeffs s) 0 /\
  call s (nth (length (knots (sbasis s)) - 1) (knots (sbasis s)) 0)
  = nth (length (coeffs s) - 1) (coeffs s) 0.
Proof.
  intros s W Z (C1 & C2 & C3 & C4). split.
  - exact (call_left_end s W Z C1 C3).
  - rewrite <- C2. exact (call_right_end s W Z C2 C4).
Qed.
Example C04_end_example : call sex 0 = 1 /\ call sex 2 = 5.
Proof. exact (C04_end_values sex bex_wf sex_sized bex_clamped). Qed.
Print Assumptions C04_end_values.

(** ** C05 *)
Theorem C05_derivative_of_running_integral : forall s, well_formed (sbasis s) -> sized s ->
  supports_positive (sbasis s) -> derivative (running_integral s) 1 = s.
Proof. exact derivative_running_integral. Qed.
Example C05_example : derivative (running_integral sex) 1 = sex.
Proof. apply C05_derivative_of_running_integral; [apply bex_wf|apply sex_sized|apply bex_supports]. Qed.
Print Assumptions C05_derivative_of_running_integral.
Theorem C05_antiderivative : forall s x, well_formed (sbasis s) -> sized s ->
  supports_positive (sbasis s) -> dom_left (sbasis s) < x < dom_right (sbasis s) ->
  mult_le (sbasis s) x (degree (sbasis s)) ->
  derivable_pt_lim (call (running_integral s)) x (call s x).
Proof. exact running_integral_correct. Qed.
Print Assumptions C05_antiderivative.
Theorem C05_start_end : forall s, well_formed (sbasis s) -> sized s -> clamped (sbasis s) ->
  call (running_integral s) (nth 0 (knots (sbasis s)) 0) = 0 /\
  call (running_integral s) (nth (length (knots (sbasis s)) - 1) (knots (sbasis s)) 0) = integral s.
Proof. intros s W Z C. split; [exact (running_integral_start s W Z C)|exact (running_integral_end s W Z C)]. Qed.
Example C05_start_end_example : call (running_integral sex) 0 = 0 /\ call (running_integral sex) 2 = integral sex.
Proof. exact (C05_start_end sex bex_wf sex_sized bex_clamped). Qed.
Print Assumptions C05_start_end.
Theorem C05_definite_integral : forall s a c (pr : Riemann_integrable (call s) a c),
  well_formed (sbasis s) -> sized s -> supports_positive (sbasis s) ->
  dom_left (sbasis s) < a -> a <= c -> c < dom_right (sbasis s) ->
  (forall x, a <= x <= c -> mult_le (sbasis s) x (degree (sbasis s))) ->
  definite_integral s a c = RiemannInt pr.
Proof. exact definite_integral_correct. Qed.
Example C05_definite_example : dom_left bex < 1/2 /\ 1/2 <= 3/2 /\ 3/2 < dom_right bex /\
  forall x, 1/2 <= x <= 3/2 -> mult_le bex x (degree bex).
Proof.
  unfold dom_left, dom_right. simpl. repeat split; try lra.
  intros x Hx. destruct (bex_mult x) as [H|[H|H]]; [exact H|lra|lra].
Qed.
Print Assumptions C05_definite_integral.
Theorem C05_definite_additive : forall s a c e,
  definite_integral s a c + definite_integral s c e = definite_integral s a e.
Proof. intros. unfold definite_integral. ring. Qed.
Print Assumptions C05_definite_additive.

(** ** C06 *)
Theorem C06_knot_insertion : forall s ts x c2 k2, well_formed (sbasis s) -> sized s ->
  in_domain (sbasis s) x ->
  (nth 0 (knots (sbasis s)) 0 < x \/ Forall (fun t => nth 0 (knots (sbasis s)) 0 < t) ts) ->
  knot_insertion (knots (sbasis s)) (degree (sbasis s)) ts (coeffs s) = (c2, k2) ->
  call (mkS (mkB k2 (degree (sbasis s))) c2) x = call s x /\
  Permutation k2 (ts ++ knots (sbasis s)) /\ nondecreasing k2.
Proof. exact knot_insertion_call. Qed.
Example C06_example :
  let r := knot_insertion (knots bex) 2 [1; 3/2] (coeffs sex) in
  call (mkS (mkB (snd r) 2) (fst r)) 0 = call sex 0 /\
  call (mkS (mkB (snd r) 2) (fst r)) (5/4) = call sex (5/4).
Proof.
  split; (apply (C06_knot_insertion sex [1; 3/2]);
    [apply bex_wf|apply sex_sized|apply bex_dom; lra| |apply surjective_pairing]).
  - right. simpl. repeat constructor; lra.
  - left. simpl. lra.
Qed.
Print Assumptions C06_knot_insertion.
Theorem C06_crop : forall s lo hi x, well_formed (sbasis s) -> sized s ->
  dom_left (sbasis s) <= lo -> hi <= dom_right (sbasis s) -> lo < x <= hi ->
  call (crop_spline s lo hi) x = call s x.
Proof. exact crop_call. Qed.
Example C06_crop_example : call (crop_spline sex (1/2) (3/2)) 1 = call sex 1.
Proof.
  apply C06_crop; [apply bex_wf|apply sex_sized| | |]; unfold dom_left, dom_right, sex, bex; simpl; lra.
Qed.
Print Assumptions C06_crop.
Theorem C06_crop_start : forall s lo hi, well_formed (sbasis s) -> sized s ->
  lo = nth 0 (knots (sbasis s)) 0 -> lo = dom_left (sbasis s) ->
  lo < nth (degree (sbasis s) + 1) (knots (sbasis s)) 0 ->
  lo < hi <= dom_right (sbasis s) ->
  call (crop_spline s lo hi) lo = call s lo.
Proof. exact crop_call_start. Qed.
Print Assumptions C06_crop_start.

(** ** C07 *)
Theorem C07_scale : forall s f sft x, 0 < f -> call (scale s f sft) (x * f + sft) = call s x.
Proof. exact scale_call. Qed.
Example C07_example : call (scale sex (1/2) 3) (1 * (1/2) + 3) = call sex 1.
Proof. apply C07_scale. lra. Qed.
Print Assumptions C07_scale.
Theorem C07_scale_compose : forall s f1 s1 f2 s2,
  scale (scale s f1 s1) f2 s2 = scale s (f1 * f2) (s1 * f2 + s2).
Proof.
  intros [[k d] c] f1 s1 f2 s2. unfold scale, scale_basis. simpl. f_equal. f_equal.
  rewrite map_map. apply map_ext. intros; ring.
Qed.
Print Assumptions C07_scale_compose.

(** ** C10 *)
Theorem C10_equal_hash : forall h1 h2 b1 b2, basis_eq b1 b2 = true ->
  basis_hash h1 h2 b1 = basis_hash h1 h2 b2.
Proof. exact basis_eq_hash. Qed.
Print Assumptions C10_equal_hash.
Theorem C10_eq_is_equality : forall b1 b2, basis_eq b1 b2 = true <-> b1 = b2.
Proof. exact basis_eq_spec. Qed.
Print Assumptions C10_eq_is_equality.
Theorem C10_greville : forall b i, well_formed b -> (1 <= degree b)%nat ->
  (i < blen b)%nat ->
  nth (i + 1) (knots b) 0 <= nth i (greville b) 0 <= nth (i + degree b) (knots b) 0.
Proof. exact greville_bounds. Qed.
Example C10_greville_example : nth 2 (knots bex) 0 <= nth 1 (greville bex) 0 <= nth 3 (knots bex) 0.
Proof. apply (C10_greville bex 1); [apply bex_wf|simpl; lia|unfold blen; simpl; lia]. Qed.
Print Assumptions C10_greville.
Theorem C10_greville_identity : forall b x, well_formed b -> (1 <= degree b)%nat -> in_domain b x ->
  call (mkS b (greville b)) x = x.
Proof. exact greville_identity. Qed.
Example C10_identity_example : call (mkS bex (greville bex)) (5/3) = 5/3.
Proof. apply C10_greville_identity; [apply bex_wf|simpl; lia|apply bex_dom; lra]. Qed.
Print Assumptions C10_greville_identity.
