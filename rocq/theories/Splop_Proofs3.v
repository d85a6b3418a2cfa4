(** Sum, product, power and knot insertion as operations on functions. *)
From Coq Require Import Reals Lra Lia List Arith Bool ZArith Permutation.
From Verif Require Import Blossom Spline_Model Spline_Spec Spline_Proofs Spline_Proofs2 Spline_Proofs4
  Span_Proofs Span_Proofs2 Splop_Model Splop_Spec Splop_Proofs Splop_Proofs2.
Import ListNotations.
Local Open Scope R_scope.

(** ** sum *)
Lemma dot_sum2 : forall u v w, length v = length w ->
  dot u (map (fun p => fst p + snd p) (combine v w)) = dot u v + dot u w.
Proof.
  induction u as [|a u IH]; intros [|c v] [|e w] L; simpl in *; try lra; try discriminate.
  rewrite IH by lia. ring.
Qed.

Lemma add_spline_basis : forall tol s1 s2 s, add_spline tol s1 s2 = Some s ->
  sbasis s = basis_add (sbasis s1) (sbasis s2) /\ sized s.
Proof.
  intros tol s1 s2 s H. unfold add_spline in H.
  destruct (transform_basis tol _ (sbasis s1)) as [T1|]; [|discriminate].
  destruct (transform_basis tol _ (sbasis s2)) as [T2|]; [|discriminate].
  inversion H; subst; clear H. split; [reflexivity|]. unfold sized. cbn [sbasis coeffs].
  rewrite map_length, combine_length, !cols_dot_length. apply Nat.min_id.
Qed.

Theorem add_clamped : forall tol s1 s2 s lo hi,
  clamped_on (sbasis s1) lo hi -> clamped_on (sbasis s2) lo hi ->
  add_spline tol s1 s2 = Some s -> clamped_on (sbasis s) lo hi.
Proof.
  intros tol s1 s2 s lo hi C1 C2 H. rewrite (proj1 (add_spline_basis _ _ _ _ H)).
  apply combine_clamped; auto; lia.
Qed.

Theorem add_close : forall tol s1 s2 s lo hi x, 0 <= tol ->
  clamped_on (sbasis s1) lo hi -> clamped_on (sbasis s2) lo hi -> sized s1 -> sized s2 ->
  add_spline tol s1 s2 = Some s ->
  Rabs (call s x - (call s1 x + call s2 x)) <= tol * (size_of (coeffs s1) + size_of (coeffs s2)).
Proof.
  intros tol s1 s2 s lo hi x HT C1 C2 Z1 Z2 H.
  pose proof (add_clamped _ _ _ _ _ _ C1 C2 H) as CS. pose proof (add_spline_basis _ _ _ _ H) as [EB SZ].
  pose proof (size_nonneg (coeffs s1)). pose proof (size_nonneg (coeffs s2)).
  destruct (Rle_dec lo x) as [A|A]; [destruct (Rle_dec x hi) as [B|B]|].
  - unfold add_spline in H. rewrite EB in CS.
    set (b := basis_add (sbasis s1) (sbasis s2)) in *.
    destruct (transform_basis tol b (sbasis s1)) as [T1|] eqn:E1; [|discriminate].
    destruct (transform_basis tol b (sbasis s2)) as [T2|] eqn:E2; [|discriminate].
    inversion H; subst s; clear H. unfold call at 1. cbn [sbasis coeffs].
    rewrite dot_sum2 by (rewrite !cols_dot_length; reflexivity).
    assert (D1 : (degree (sbasis s1) <= degree b)%nat) by (unfold b; simpl; lia).
    assert (D2 : (degree (sbasis s2) <= degree b)%nat) by (unfold b; simpl; lia).
    pose proof (transform_call tol b s1 T1 lo hi x HT CS C1 Z1 D1
                  (combine_keeps_l _ _ _ _ _ D1 D2) E1 (conj A B)) as P1.
    pose proof (transform_call tol b s2 T2 lo hi x HT CS C2 Z2 D2
                  (combine_keeps_r _ _ _ _ _ D1 D2) E2 (conj A B)) as P2.
    match goal with |- Rabs (?p + ?q - (?r + ?t)) <= _ =>
      replace (p + q - (r + t)) with ((p - r) + (q - t)) by ring end.
    eapply Rle_trans; [apply Rabs_triang|]. lra.
  - rewrite (clamped_outside s lo hi), (clamped_outside s1 lo hi), (clamped_outside s2 lo hi) by (auto; lra).
    rewrite Rplus_0_r, Rminus_0_r, Rabs_R0. apply Rmult_le_pos; lra.
  - rewrite (clamped_outside s lo hi), (clamped_outside s1 lo hi), (clamped_outside s2 lo hi) by (auto; lra).
    rewrite Rplus_0_r, Rminus_0_r, Rabs_R0. apply Rmult_le_pos; lra.
Qed.

Lemma close_0 : forall a z, Rabs (a - z) <= 0 -> a = z.
Proof.
  intros a z H. pose proof (Rabs_pos (a - z)). 
  destruct (Req_dec (a - z) 0) as [E|E]; [lra|]. apply Rabs_no_R0 in E. lra.
Qed.

Theorem add_exact : forall s1 s2 s lo hi x,
  clamped_on (sbasis s1) lo hi -> clamped_on (sbasis s2) lo hi -> sized s1 -> sized s2 ->
  add_spline 0 s1 s2 = Some s -> call s x = call s1 x + call s2 x.
Proof.
  intros s1 s2 s lo hi x C1 C2 Z1 Z2 H. apply close_0.
  eapply Rle_trans; [apply (add_close 0 s1 s2 s lo hi x); auto; lra|]. rewrite Rmult_0_l. lra.
Qed.

Lemma neg_basis : forall s, sbasis (neg s) = sbasis s. Proof. reflexivity. Qed.
Lemma neg_sized : forall s, sized s -> sized (neg s).
Proof. intros s H. unfold sized in *. simpl. rewrite map_length. exact H. Qed.
Lemma size_neg : forall c, size_of (map Ropp c) = size_of c.
Proof. induction c; simpl; [reflexivity|]. rewrite Rabs_Ropp, IHc. reflexivity. Qed.

Theorem sub_close : forall tol s1 s2 s lo hi x, 0 <= tol ->
  clamped_on (sbasis s1) lo hi -> clamped_on (sbasis s2) lo hi -> sized s1 -> sized s2 ->
  sub_spline tol s1 s2 = Some s ->
  Rabs (call s x - (call s1 x - call s2 x)) <= tol * (size_of (coeffs s1) + size_of (coeffs s2)).
Proof.
  intros tol s1 s2 s lo hi x HT C1 C2 Z1 Z2 H.
  pose proof (add_close tol s1 (neg s2) s lo hi x HT C1 C2 Z1 (neg_sized _ Z2) H) as P.
  rewrite neg_call in P. simpl coeffs in P. rewrite size_neg in P. exact P.
Qed.

(** ** product *)
Lemma eval_supported : forall b x J i, well_formed b -> active b x J -> (i < blen b)%nat ->
  nth i (eval_basis b x) 0 <> 0 -> (i <= J <= i + degree b)%nat.
Proof.
  intros b x J i W A Hi NZ.
  destruct (le_lt_dec i J) as [L|L]; [destruct (le_lt_dec J (i + degree b)) as [M|M]; [lia|]|]; exfalso; apply NZ;
    unfold eval_basis; unfold blen in Hi; (rewrite (basis_row_NB b x J (proj1 W) A); [apply NB_support; lia|lia|lia]).
Qed.

Lemma overlap_zero : forall b1 b2 lo hi x i j, clamped_on b1 lo hi -> clamped_on b2 lo hi ->
  lo <= x <= hi -> (i < blen b1)%nat -> (j < blen b2)%nat ->
  overlap (support b1 i) (support b2 j) = false ->
  nth i (eval_basis b1 x) 0 * nth j (eval_basis b2 x) 0 = 0.
Proof.
  intros b1 b2 lo hi x i j C1 C2 Hx Hi Hj OV.
  destruct (Req_dec (nth i (eval_basis b1 x) 0) 0) as [E|E]; [rewrite E; ring|].
  destruct (Req_dec (nth j (eval_basis b2 x) 0) 0) as [E'|E']; [rewrite E'; ring|].
  exfalso.
  destruct (active_exists b1 x) as [J A]; [apply C1|apply (clamped_in _ lo hi); auto|].
  destruct (active_exists b2 x) as [K B]; [apply C2|apply (clamped_in _ lo hi); auto|].
  pose proof (eval_supported b1 x J i (proj1 C1) A Hi E) as S1.
  pose proof (eval_supported b2 x K j (proj1 C2) B Hj E') as S2.
  unfold overlap, support in OV. cbn [fst snd] in OV. apply Rltb_false in OV.
  destruct (clamped_count _ _ _ C1) as [_ [_ [LH R1]]]. destruct (clamped_count _ _ _ C2) as [_ [_ [_ R2]]].
  destruct C1 as [[ND1 LE1] [_ [F1 _]]]. destruct C2 as [[ND2 LE2] [_ [F2 _]]].
  change (nth 0 (knots b1) 0) with (kn b1 0) in F1. change (nth 0 (knots b2) 0) with (kn b2 0) in F2.
  destruct A as [A1 [A2 [A3 A4]]]. destruct B as [B1 [B2 [B3 B4]]].
  assert (P1 : kn b1 i <= kn b1 J) by (unfold kn; apply ND1; lia).
  assert (P2 : kn b1 (J + 1) <= kn b1 (i + degree b1 + 1)) by (unfold kn; apply ND1; unfold blen in Hi; lia).
  assert (P3 : kn b2 j <= kn b2 K) by (unfold kn; apply ND2; lia).
  assert (P4 : kn b2 (K + 1) <= kn b2 (j + degree b2 + 1)) by (unfold kn; apply ND2; unfold blen in Hj; lia).
  assert (Q1 : lo <= kn b1 J) by (apply R1, kn_in; lia).
  assert (Q2 : lo <= kn b2 K) by (apply R2, kn_in; lia).
  assert (M : Rmax (kn b1 i) (kn b2 j) < Rmin (kn b1 (i + degree b1 + 1)) (kn b2 (j + degree b2 + 1))).
  { apply Rmax_lub_lt; apply Rmin_glb_lt; try lra.
    all: destruct A4 as [A4|[A4 [A5 A6]]]; destruct B4 as [B4|[B4 [B5 B6]]]; lra. }
  lra.
Qed.

Lemma pairs_in : forall b1 b2 p, In p (pairs b1 b2) ->
  (fst p < blen b1)%nat /\ (snd p < blen b2)%nat.
Proof.
  intros b1 b2 p I. unfold pairs in I. apply in_flat_map in I. destruct I as [i [Hi I]].
  apply in_map_iff in I. destruct I as [j [E I]]. subst p. cbn [fst snd].
  apply filter_In in I. destruct I as [I _]. apply in_seq in Hi. apply in_seq in I. lia.
Qed.

Lemma total_app : forall l l', total (l ++ l') = total l + total l'.
Proof. unfold total. induction l; intros; simpl; [ring|]. rewrite IHl. ring. Qed.
Lemma total_filter : forall (f : nat -> R) p l, (forall j, In j l -> p j = false -> f j = 0) ->
  total (map f (filter p l)) = total (map f l).
Proof.
  induction l as [|a l IH]; intros H; [reflexivity|]. simpl.
  destruct (p a) eqn:E; simpl.
  - unfold total in *. simpl. rewrite IH; [reflexivity|]. intros; apply H; [right|]; assumption.
  - rewrite IH by (intros; apply H; [right|]; assumption).
    rewrite (H a (or_introl eq_refl) E). unfold total. simpl. ring.
Qed.
Lemma total_flat : forall (f : nat -> nat -> R) (q : nat -> list nat) l,
  total (map (fun p => f (fst p) (snd p)) (flat_map (fun i => map (fun j => (i, j)) (q i)) l))
  = total (map (fun i => total (map (f i) (q i))) l).
Proof.
  induction l as [|a l IH]; [reflexivity|]. simpl flat_map. rewrite map_app, total_app, IH.
  simpl map. unfold total at 3. simpl. f_equal. rewrite map_map. reflexivity.
Qed.
Lemma total_scal : forall a (f : nat -> R) l, total (map (fun j => a * f j) l) = a * total (map f l).
Proof. unfold total. induction l; simpl; [ring|]. rewrite IHl. ring. Qed.

Lemma dot_total : forall u v, length u = length v ->
  dot u v = total (map (fun i => nth i u 0 * nth i v 0) (seq 0 (length u))).
Proof.
  induction u as [|a u IH]; intros [|c v] L; simpl in L; try discriminate; [reflexivity|].
  simpl dot. simpl seq. simpl map. unfold total. simpl fold_right. f_equal.
  rewrite IH by lia. unfold total. f_equal. rewrite <- seq_shift, map_map. reflexivity.
Qed.

Lemma dot_total_pairs : forall (A : Type) (f g : A -> R) l,
  dot (map f l) (map g l) = total (map (fun p => f p * g p) l).
Proof. unfold total. induction l; simpl; [reflexivity|]. rewrite IHl. reflexivity. Qed.

Lemma nth_map_d : forall (A : Type) (f : A -> R) l c d, (c < length l)%nat ->
  nth c (map f l) 0 = f (nth c l d).
Proof.
  intros A f l c d H. rewrite (nth_indep _ 0 (f d)) by (rewrite map_length; exact H). apply map_nth.
Qed.

Lemma total_ext_in : forall (A : Type) (f g : A -> R) l, (forall x, In x l -> f x = g x) ->
  total (map f l) = total (map g l).
Proof. intros. f_equal. apply map_ext_in. assumption. Qed.

Lemma pairs_sum : forall s1 s2 lo hi x,
  clamped_on (sbasis s1) lo hi -> clamped_on (sbasis s2) lo hi -> sized s1 -> sized s2 -> lo <= x <= hi ->
  total (map (fun p => nth (fst p) (eval_basis (sbasis s1) x) 0 * nth (snd p) (eval_basis (sbasis s2) x) 0
                       * (nth (fst p) (coeffs s1) 0 * nth (snd p) (coeffs s2) 0))
             (pairs (sbasis s1) (sbasis s2)))
  = call s1 x * call s2 x.
Proof.
  intros s1 s2 lo hi x C1 C2 Z1 Z2 Hx. unfold pairs.
  rewrite (total_flat (fun i j => nth i (eval_basis (sbasis s1) x) 0 * nth j (eval_basis (sbasis s2) x) 0
                       * (nth i (coeffs s1) 0 * nth j (coeffs s2) 0))).
  assert (E2 : call s2 x = total (map (fun j => nth j (eval_basis (sbasis s2) x) 0 * nth j (coeffs s2) 0)
                              (seq 0 (blen (sbasis s2))))).
  { unfold call. rewrite dot_total by (rewrite blen_eval; symmetry; exact Z2). rewrite blen_eval. reflexivity. }
  rewrite (total_ext_in _ _ (fun i => call s2 x * (nth i (eval_basis (sbasis s1) x) 0 * nth i (coeffs s1) 0))).
  - rewrite total_scal. unfold call at 2. rewrite dot_total by (rewrite blen_eval; symmetry; exact Z1).
    rewrite blen_eval. ring.
  - intros i Hi. apply in_seq in Hi. rewrite total_filter.
    + rewrite E2. rewrite (total_ext_in _ _ (fun j => (nth i (eval_basis (sbasis s1) x) 0 * nth i (coeffs s1) 0)
            * (nth j (eval_basis (sbasis s2) x) 0 * nth j (coeffs s2) 0))) by (intros; ring).
      rewrite total_scal. ring.
    + intros j Hj OV. apply in_seq in Hj.
      rewrite (overlap_zero (sbasis s1) (sbasis s2) lo hi x i j) by (auto; lia). ring.
Qed.

Lemma mul_spline_basis : forall tol s1 s2 s, mul_spline tol s1 s2 = Some s ->
  sbasis s = basis_mul (sbasis s1) (sbasis s2) /\ sized s.
Proof.
  intros tol s1 s2 s H. unfold mul_spline in H.
  destruct (transform _ _ _ _) as [T|]; [|discriminate]. inversion H; subst; clear H.
  split; [reflexivity|]. unfold sized. simpl. rewrite cols_dot_length. reflexivity.
Qed.

Theorem mul_clamped : forall tol s1 s2 s lo hi,
  clamped_on (sbasis s1) lo hi -> clamped_on (sbasis s2) lo hi ->
  mul_spline tol s1 s2 = Some s -> clamped_on (sbasis s) lo hi.
Proof.
  intros tol s1 s2 s lo hi C1 C2 H. rewrite (proj1 (mul_spline_basis _ _ _ _ H)).
  apply combine_clamped; auto; lia.
Qed.

(** the products of coefficients that enter the result *)
Definition coef_products (s1 s2 : bspline) : list R :=
  map (fun p => nth (fst p) (coeffs s1) 0 * nth (snd p) (coeffs s2) 0) (pairs (sbasis s1) (sbasis s2)).

Theorem mul_close : forall tol s1 s2 s lo hi x, 0 <= tol ->
  clamped_on (sbasis s1) lo hi -> clamped_on (sbasis s2) lo hi -> sized s1 -> sized s2 ->
  mul_spline tol s1 s2 = Some s ->
  Rabs (call s x - call s1 x * call s2 x) <= tol * size_of (coef_products s1 s2).
Proof.
  intros tol s1 s2 s lo hi x HT C1 C2 Z1 Z2 H.
  pose proof (mul_clamped _ _ _ _ _ _ C1 C2 H) as CS. pose proof (mul_spline_basis _ _ _ _ H) as [EB SZ].
  pose proof (size_nonneg (coef_products s1 s2)).
  destruct (Rle_dec lo x) as [A|A]; [destruct (Rle_dec x hi) as [B|B]|].
  - unfold mul_spline in H. rewrite EB in CS.
    set (b := basis_mul (sbasis s1) (sbasis s2)) in *.
    set (ps := pairs (sbasis s1) (sbasis s2)) in *.
    destruct (transform tol b (product_row b (sbasis s1) (sbasis s2)) (length ps)) as [T|] eqn:E; [|discriminate].
    inversion H; subst s; clear H.
    assert (D1 : (degree (sbasis s1) <= degree b)%nat) by (unfold b; simpl; lia).
    assert (D2 : (degree (sbasis s2) <= degree b)%nat) by (unfold b; simpl; lia).
    set (g := fun c y => nth (fst (nth c ps (0, 0)%nat)) (eval_basis (sbasis s1) y) 0
                       * nth (snd (nth c ps (0, 0)%nat)) (eval_basis (sbasis s2) y) 0).
    destruct (transform_all tol b _ (length ps) T lo hi g HT CS E) as [LT [LC CL]].
    + intros i c Hi Hc. unfold product_row. fold ps. unfold g.
      rewrite (nth_map_d _ _ _ _ (0, 0)%nat) by exact Hc. reflexivity.
    + intros c Hc. destruct (pairs_in (sbasis s1) (sbasis s2) (nth c ps (0, 0)%nat)) as [P1 P2].
      { apply nth_In. exact Hc. }
      set (i := fst (nth c ps (0, 0)%nat)) in *. set (j := snd (nth c ps (0, 0)%nat)) in *.
      destruct (clamped_two b (mkS (sbasis s1) (unitv (blen (sbasis s1)) i))
                              (mkS (sbasis s2) (unitv (blen (sbasis s2)) j)) lo hi) as [cs [L HC]]; auto.
      * unfold sized. simpl. apply unitv_length.
      * unfold sized. simpl. apply unitv_length.
      * simpl sbasis. pose proof (combine_keeps_l (sbasis s1) (sbasis s2) (degree b) lo hi D1 D2) as K.
        replace (degree b - degree (sbasis s1))%nat with (degree (sbasis s2)) in K by (unfold b; simpl; lia). exact K.
      * simpl sbasis. pose proof (combine_keeps_r (sbasis s1) (sbasis s2) (degree b) lo hi D1 D2) as K.
        replace (degree b - degree (sbasis s2))%nat with (degree (sbasis s1)) in K by (unfold b; simpl; lia). exact K.
      * exists cs. split; [exact L|]. intros y Hy. rewrite HC by exact Hy. unfold g. fold i j.
        rewrite !call_unit by assumption. reflexivity.
    + unfold call at 1. cbn [sbasis coeffs]. rewrite dot_cols by exact LC.
      rewrite <- (pairs_sum s1 s2 lo hi x C1 C2 Z1 Z2 (conj A B)). fold ps.
      rewrite <- (dot_total_pairs _ (fun p => nth (fst p) (eval_basis (sbasis s1) x) 0 *
                        nth (snd p) (eval_basis (sbasis s2) x) 0)
                     (fun p => nth (fst p) (coeffs s1) 0 * nth (snd p) (coeffs s2) 0)).
      unfold coef_products. fold ps. apply dot_close; [rewrite !map_length; exact LT|exact HT|].
      intros c Hc. rewrite map_length, LT in Hc.
      rewrite (nth_map_d _ _ T c []) by lia. rewrite (nth_map_d _ _ ps c (0, 0)%nat) by exact Hc.
      apply (CL x c (conj A B) Hc).
  - rewrite (clamped_outside s lo hi), (clamped_outside s1 lo hi) by (auto; lra).
    rewrite Rmult_0_l, Rminus_0_r, Rabs_R0. apply Rmult_le_pos; lra.
  - rewrite (clamped_outside s lo hi), (clamped_outside s1 lo hi) by (auto; lra).
    rewrite Rmult_0_l, Rminus_0_r, Rabs_R0. apply Rmult_le_pos; lra.
Qed.

Theorem mul_exact : forall s1 s2 s lo hi x,
  clamped_on (sbasis s1) lo hi -> clamped_on (sbasis s2) lo hi -> sized s1 -> sized s2 ->
  mul_spline 0 s1 s2 = Some s -> call s x = call s1 x * call s2 x.
Proof.
  intros s1 s2 s lo hi x C1 C2 Z1 Z2 H. apply close_0.
  eapply Rle_trans; [apply (mul_close 0 s1 s2 s lo hi x); auto; lra|]. rewrite Rmult_0_l. lra.
Qed.

(** ** power *)
Lemma pow_go_pointwise : forall tol s k a r x,
  (forall p q m, mul_spline tol p q = Some m -> call m x = call p x * call q x) ->
  pow_go tol s a k = Some r -> call r x = call a x * call s x ^ k.
Proof.
  induction k as [|k IH]; intros a r x HM H; simpl in H.
  - inversion H; subst. simpl. ring.
  - destruct (mul_spline tol a s) as [a'|] eqn:E; [|discriminate].
    rewrite (IH a' r x HM H). rewrite (HM _ _ _ E). simpl. ring.
Qed.

Theorem pow_pointwise : forall tol s n r x, (1 <= n)%Z ->
  (forall p q m, mul_spline tol p q = Some m -> call m x = call p x * call q x) ->
  pow_spline tol s n = Some r -> call r x = call s x ^ Z.to_nat n.
Proof.
  intros tol s n r x Hn HM H. unfold pow_spline in H.
  rewrite (pow_go_pointwise tol s _ s r x HM H).
  replace (Z.to_nat n) with (S (Z.to_nat (n - 1))) by lia. reflexivity.
Qed.

Lemma pow_go_exact : forall s k a r lo hi x,
  clamped_on (sbasis s) lo hi -> sized s -> clamped_on (sbasis a) lo hi -> sized a ->
  pow_go 0 s a k = Some r ->
  call r x = call a x * call s x ^ k /\ clamped_on (sbasis r) lo hi /\ sized r.
Proof.
  induction k as [|k IH]; intros a r lo hi x C Z C' Z' H; simpl in H.
  - inversion H; subst. split; [simpl; ring|]. split; assumption.
  - destruct (mul_spline 0 a s) as [a'|] eqn:E; [|discriminate].
    destruct (IH a' r lo hi x C Z) as [H1 H2]; auto.
    + apply (mul_clamped 0 a s a'); auto.
    + apply (mul_spline_basis 0 a s a' E).
    + split; [|exact H2]. rewrite H1. rewrite (mul_exact a s a' lo hi x) by assumption. simpl. ring.
Qed.

Theorem pow_exact : forall s n r lo hi x, (1 <= n)%Z ->
  clamped_on (sbasis s) lo hi -> sized s ->
  pow_spline 0 s n = Some r -> call r x = call s x ^ Z.to_nat n.
Proof.
  intros s n r lo hi x Hn C Z H. unfold pow_spline in H.
  destruct (pow_go_exact s _ s r lo hi x C Z C Z H) as [E _]. rewrite E.
  replace (Z.to_nat n) with (S (Z.to_nat (n - 1))) by lia. reflexivity.
Qed.

Theorem pow_basis : forall tol s n r, (1 <= n)%Z -> pow_spline tol s n = Some r ->
  degree (sbasis r) = (Z.to_nat n * degree (sbasis s))%nat.
Proof.
  intros tol s n r Hn H. unfold pow_spline in H.
  assert (G : forall k a r, pow_go tol s a k = Some r ->
    degree (sbasis r) = (degree (sbasis a) + k * degree (sbasis s))%nat).
  { clear. induction k as [|k IH]; intros a r H; simpl in H.
    - inversion H; subst. lia.
    - destruct (mul_spline tol a s) as [a'|] eqn:E; [|discriminate]. rewrite (IH a' r H).
      rewrite (proj1 (mul_spline_basis _ _ _ _ E)). simpl. lia. }
  rewrite (G _ _ _ H). replace (Z.to_nat n) with (S (Z.to_nat (n - 1))) by lia. lia.
Qed.

Theorem pow_zero : forall tol s, pow_spline tol s 0 = Some s.
Proof. reflexivity. Qed.

(** ** knot insertion by transformation *)
Lemma insert_knots_cnt : forall b ts t,
  cnt (knots (insert_knots_basis b ts)) t =
  if (cnt (knots b) t =? 0)%nat then (if in_dec Req_EM_T t ts then 1 else 0)%nat else cnt (knots b) t.
Proof.
  intros b ts t. unfold insert_knots_basis. simpl knots.
  rewrite (cnt_perm _ _ t (py_sorted_perm _)), cnt_app.
  set (l := py_sorted (nodup Req_EM_T ts)).
  assert (NDl : NoDup l).
  { apply (Permutation_NoDup (Permutation_sym (py_sorted_perm _))). apply NoDup_nodup. }
  assert (INl : In t l <-> In t ts).
  { split; intros I.
    - apply (Permutation_in t (py_sorted_perm _)) in I. apply nodup_In in I. exact I.
    - apply (Permutation_in t (Permutation_sym (py_sorted_perm _))). apply nodup_In. exact I. }
  assert (EX : existsb (Reqb t) (knots b) = negb (cnt (knots b) t =? 0)%nat).
  { destruct (existsb (Reqb t) (knots b)) eqn:E.
    - apply existsb_exists in E. destruct E as [u [I E]]. apply Reqb_true in E. subst u.
      apply in_cnt in I. destruct (Nat.eqb_spec (cnt (knots b) t) 0); [lia|reflexivity].
    - destruct (Nat.eqb_spec (cnt (knots b) t) 0) as [Z|Z]; [reflexivity|]. exfalso.
      assert (I : In t (knots b)) by (apply in_cnt; lia).
      assert (existsb (Reqb t) (knots b) = true).
      { apply existsb_exists. exists t. split; [exact I|]. apply Reqb_true. reflexivity. }
      congruence. }
  assert (CF : cnt (filter (fun u => negb (existsb (Reqb u) (knots b))) l) t
    = if (cnt (knots b) t =? 0)%nat then cnt l t else 0%nat).
  { clear NDl INl. induction l as [|a l IH].
    - simpl. destruct (cnt (knots b) t =? 0)%nat; reflexivity.
    - simpl filter. destruct (Req_EM_T a t) as [->|N].
      + rewrite EX. destruct (cnt (knots b) t =? 0)%nat; simpl negb; cbv iota.
        * unfold cnt in *. simpl. destruct (Req_EM_T t t); [|congruence]. rewrite IH. reflexivity.
        * exact IH.
      + assert (EC : cnt (a :: l) t = cnt l t).
        { unfold cnt. simpl. destruct (Req_EM_T a t); [congruence|reflexivity]. }
        rewrite EC. destruct (negb (existsb (Reqb a) (knots b))).
        * unfold cnt at 1. simpl. destruct (Req_EM_T a t); [congruence|]. exact IH.
        * exact IH. }
  rewrite CF. destruct (Nat.eqb_spec (cnt (knots b) t) 0) as [Z|Z].
  - rewrite Z. simpl. destruct (in_dec Req_EM_T t ts) as [I|I].
    + apply (proj2 INl) in I. unfold cnt.
      apply (proj1 (NoDup_count_occ' Req_EM_T l) NDl t I).
    + unfold cnt. apply count_occ_not_In. intros H. apply I. apply INl. exact H.
  - lia.
Qed.

Theorem insert_knots_clamped : forall b ts lo hi, clamped_on b lo hi ->
  (forall t, In t ts -> lo <= t <= hi) -> clamped_on (insert_knots_basis b ts) lo hi.
Proof.
  intros b ts lo hi C HT. destruct (clamped_count _ _ _ C) as [L [H [LH R]]].
  apply count_clamped; auto.
  - apply py_sorted_nondecreasing.
  - rewrite insert_knots_cnt, L. rewrite (proj2 (Nat.eqb_neq _ 0)) by lia. reflexivity.
  - rewrite insert_knots_cnt, H. rewrite (proj2 (Nat.eqb_neq _ 0)) by lia. reflexivity.
  - intros u I. apply in_cnt in I. rewrite insert_knots_cnt in I.
    destruct (Nat.eqb_spec (cnt (knots b) u) 0) as [Z|Z].
    + destruct (in_dec Req_EM_T u ts) as [I'|I']; [apply HT; exact I'|lia].
    + apply R. apply in_cnt. exact I.
Qed.

Theorem insert_knots_close : forall tol s ts s' lo hi x, 0 <= tol ->
  clamped_on (sbasis s) lo hi -> sized s -> (forall t, In t ts -> lo <= t <= hi) ->
  insert_knots tol s ts = Some s' ->
  Rabs (call s' x - call s x) <= tol * size_of (coeffs s).
Proof.
  intros tol s ts s' lo hi x HT C Z HI H.
  pose proof (insert_knots_clamped _ _ _ _ C HI) as CB. pose proof (size_nonneg (coeffs s)).
  unfold insert_knots in H. set (b := insert_knots_basis (sbasis s) ts) in *.
  destruct (transform_basis tol b (sbasis s)) as [T|] eqn:E; [|discriminate].
  inversion H; subst s'; clear H.
  assert (OUT : ~ (lo <= x <= hi) ->
     Rabs (call (mkS b (cols_dot (blen b) T (coeffs s))) x - call s x) <= tol * size_of (coeffs s)).
  { intros NX. rewrite (clamped_outside (mkS b (cols_dot (blen b) T (coeffs s))) lo hi x CB); [|unfold sized; simpl; apply cols_dot_length|exact NX].
    rewrite (clamped_outside s lo hi) by assumption. rewrite Rminus_0_r, Rabs_R0. apply Rmult_le_pos; lra. }
  destruct (Rle_dec lo x) as [A|A]; [destruct (Rle_dec x hi) as [B|B]|]; [|apply OUT; lra|apply OUT; lra].
  unfold call at 1. cbn [sbasis coeffs].
  apply (transform_call tol b s T lo hi x); auto.
  intros t Ht M. change (degree b) with (degree (sbasis s)). unfold mult in *.
  fold (cnt (knots (sbasis s)) t) in *. fold (cnt (knots b) t). unfold b. rewrite insert_knots_cnt.
  rewrite (proj2 (Nat.eqb_neq _ 0)) by lia. lia.
Qed.
