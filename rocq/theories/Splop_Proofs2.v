(** Sum, product, power and knot insertion of splines on different bases. *)
From Coq Require Import Reals Lra Lia List Arith Bool ZArith Permutation.
From Verif Require Import Blossom Spline_Model Spline_Spec Spline_Proofs Spline_Proofs2 Spline_Proofs4
  Span_Proofs Span_Proofs2 Splop_Model Splop_Spec Splop_Proofs.
Import ListNotations.
Local Open Scope R_scope.

(** ** clamped bases by counting *)
Definition upto (l : list R) (x : R) : nat := (below l x + cnt l x)%nat.

Lemma sorted_upto : forall l x i, nondecreasing l -> (i < length l)%nat ->
  (nth i l 0 <= x <-> (i < upto l x)%nat).
Proof.
  intros l x i ND Hi.
  assert (G : exists y, x < y /\ forall u, In u l -> ~ (x < u < y)).
  { clear. induction l as [|a l [y [Hy H]]].
    - exists (x + 1). split; [lra|]. intros u [].
    - destruct (Rlt_dec x a) as [A|A].
      + exists (Rmin y a). split; [apply Rmin_glb_lt; assumption|].
        intros u [<-|I] [U1 U2].
        * pose proof (Rmin_r y a). lra.
        * apply (H u I). pose proof (Rmin_l y a). lra.
      + exists y. split; [exact Hy|]. intros u [<-|I]; [lra|apply H; exact I]. }
  destruct G as [y [Hy HG]]. unfold upto. rewrite <- (below_next l x y Hy HG).
  rewrite <- (sorted_below l y i ND Hi).
  assert (I : In (nth i l 0) l) by (apply nth_In; exact Hi). specialize (HG _ I). lra.
Qed.

Lemma below_zero : forall l x, (forall u, In u l -> x <= u) -> below l x = 0%nat.
Proof.
  induction l as [|a l IH]; intros x H; [reflexivity|]. unfold below. simpl.
  replace (Rltb a x) with false.
  - apply IH. intros; apply H; right; assumption.
  - symmetry. apply Rltb_false. apply H. left; reflexivity.
Qed.
Lemma below_all : forall l x, (forall u, In u l -> u < x) -> below l x = length l.
Proof.
  induction l as [|a l IH]; intros x H; [reflexivity|]. unfold below. simpl.
  replace (Rltb a x) with true.
  - simpl. f_equal. apply IH. intros; apply H; right; assumption.
  - symmetry. apply Rltb_true. apply H. left; reflexivity.
Qed.
Lemma upto_all : forall l x, (forall u, In u l -> u <= x) -> upto l x = length l.
Proof.
  intros l x H. unfold upto. rewrite <- (below_next l x (x + 1)).
  - apply below_all. intros u I. specialize (H u I). lra.
  - lra.
  - intros u I. specialize (H u I). lra.
Qed.

Lemma clamped_count : forall b lo hi, clamped_on b lo hi ->
  cnt (knots b) lo = (degree b + 1)%nat /\ cnt (knots b) hi = (degree b + 1)%nat /\ lo < hi /\
  (forall u, In u (knots b) -> lo <= u <= hi).
Proof.
  intros b lo hi [[ND LE] [[C1 [C2 [C3 C4]]] [E1 E2]]].
  set (d := degree b) in *. set (n := length (knots b)) in *.
  assert (RNG : forall u, In u (knots b) -> lo <= u <= hi).
  { intros u I. destruct (In_nth _ _ 0 I) as [i [Hi E]]. rewrite <- E1, <- E2, <- E.
    split; apply ND; unfold n in *; lia. }
  assert (B0 : below (knots b) lo = 0%nat) by (apply below_zero; intros u I; apply RNG; exact I).
  assert (UP : upto (knots b) lo = (d + 1)%nat).
  { assert (A : (d < upto (knots b) lo)%nat).
    { apply sorted_upto; auto; [unfold n in *; lia|]. rewrite <- E1, C1. apply Rle_refl. }
    assert (B : ~ (d + 1 < upto (knots b) lo)%nat).
    { intros B. apply sorted_upto in B; auto; [|unfold n in *; lia]. rewrite <- E1, C1 in B. lra. }
    lia. }
  assert (BH : below (knots b) hi = (n - d - 1)%nat).
  { assert (A : (n - d - 2 < below (knots b) hi)%nat).
    { apply sorted_below; auto; [unfold n in *; lia|]. rewrite <- E2, <- C2. exact C4. }
    assert (B : ~ (n - d - 1 < below (knots b) hi)%nat).
    { intros B. apply sorted_below in B; auto; [|unfold n in *; lia]. rewrite <- E2, <- C2 in B. lra. }
    lia. }
  assert (UH : upto (knots b) hi = n) by (apply upto_all; intros u I; apply RNG; exact I).
  unfold upto in UP, UH.
  split; [lia|]. split; [unfold n in *; lia|]. split; [|exact RNG].
  rewrite <- E1, <- E2, C1, <- C2. apply Rlt_le_trans with (nth (d + 1) (knots b) 0); [exact C3|].
  apply ND; unfold n in *; lia.
Qed.

Lemma count_clamped : forall b lo hi, nondecreasing (knots b) -> lo < hi ->
  cnt (knots b) lo = (degree b + 1)%nat -> cnt (knots b) hi = (degree b + 1)%nat ->
  (forall u, In u (knots b) -> lo <= u <= hi) -> clamped_on b lo hi.
Proof.
  intros b lo hi ND LH CL CH RNG. set (d := degree b) in *. set (n := length (knots b)).
  assert (B0 : below (knots b) lo = 0%nat) by (apply below_zero; intros u I; apply RNG; exact I).
  assert (UH : upto (knots b) hi = n) by (apply upto_all; intros u I; apply RNG; exact I).
  assert (UL : upto (knots b) lo = (d + 1)%nat) by (unfold upto; lia).
  assert (BH : below (knots b) hi = (n - d - 1)%nat) by (unfold upto in UH; lia).
  assert (CN : (cnt (knots b) lo <= n)%nat) by apply count_occ_bound.
  assert (LO : forall i, (i <= d)%nat -> nth i (knots b) 0 = lo).
  { intros i Hi. assert (nth i (knots b) 0 <= lo) by (apply sorted_upto; auto; fold n; lia).
    assert (lo <= nth i (knots b) 0) by (apply RNG, nth_In; fold n; lia). lra. }
  assert (NN : (2 * d + 2 <= n)%nat).
  { assert ((d < below (knots b) hi)%nat).
    { apply sorted_below; auto; [fold n; lia|]. rewrite LO by lia. exact LH. }
    lia. }
  assert (HI : forall i, (n - d - 1 <= i < n)%nat -> nth i (knots b) 0 = hi).
  { intros i Hi. assert (~ nth i (knots b) 0 < hi).
    { intros H. apply sorted_below in H; auto; fold n; lia. }
    assert (nth i (knots b) 0 <= hi) by (apply RNG, nth_In; fold n; lia). lra. }
  split; [split; [exact ND|fold d n; lia]|]. split; [|split; [apply LO; lia|fold n; apply HI; lia]].
  unfold clamped. fold d n. rewrite !LO by lia. rewrite !HI by lia.
  split; [reflexivity|]. split; [reflexivity|]. split.
  - assert (H : ~ nth (d + 1) (knots b) 0 <= lo).
    { intros H. apply sorted_upto in H; auto; fold n; lia. }
    lra.
  - apply sorted_below; auto; fold n; lia.
Qed.

Lemma clamped_dom : forall b lo hi, clamped_on b lo hi -> dom_left b = lo /\ dom_right b = hi.
Proof.
  intros b lo hi [W [[C1 [C2 [C3 C4]]] [E1 E2]]]. unfold dom_left, dom_right. split.
  - rewrite <- C1. exact E1.
  - rewrite C2. exact E2.
Qed.

Lemma clamped_in : forall b lo hi x, clamped_on b lo hi -> lo <= x <= hi -> in_domain b x.
Proof.
  intros b lo hi x CL H. destruct (clamped_dom b lo hi CL) as [D1 D2].
  destruct CL as [W [[C1 [C2 [C3 C4]]] [E1 E2]]].
  destruct (Rle_lt_or_eq_dec lo x) as [L|L]; [lra| |].
  - left. rewrite D1, D2. lra.
  - right. rewrite D1. split; [congruence|]. split; [congruence|]. rewrite <- D1. exact C3.
Qed.

Lemma clamped_outside : forall s lo hi x, clamped_on (sbasis s) lo hi -> sized s ->
  ~ (lo <= x <= hi) -> call s x = 0.
Proof.
  intros s lo hi x [[ND LE] [C [E1 E2]]] SZ H. apply call_outside; auto. rewrite E1, E2.
  destruct (Rlt_dec x lo); [left; assumption|right; lra].
Qed.

(** ** combined basis *)
Lemma lifted_some : forall b deg t, (degree b <= deg)%nat -> (0 < cnt (knots b) t)%nat ->
  lifted b deg t = Some (Z.of_nat (cnt (knots b) t + (deg - degree b))).
Proof.
  intros b deg t H C. unfold lifted. change (occurrences (knots b) t) with (cnt (knots b) t).
  destruct (cnt (knots b) t) eqn:E; [lia|]. f_equal. lia.
Qed.
Lemma lifted_none : forall b deg t, cnt (knots b) t = 0%nat -> lifted b deg t = None.
Proof.
  intros b deg t C. unfold lifted. change (occurrences (knots b) t) with (cnt (knots b) t). rewrite C. reflexivity.
Qed.

Lemma combine_mult : forall b1 b2 deg t, (degree b1 <= deg)%nat -> (degree b2 <= deg)%nat ->
  cnt (knots (combine_bases b1 b2 deg)) t =
  Nat.max (if (cnt (knots b1) t =? 0)%nat then 0 else cnt (knots b1) t + (deg - degree b1))%nat
          (if (cnt (knots b2) t =? 0)%nat then 0 else cnt (knots b2) t + (deg - degree b2))%nat.
Proof.
  intros b1 b2 deg t H1 H2. rewrite combine_cnt.
  destruct (Nat.eqb_spec (cnt (knots b1) t) 0) as [E1|E1];
    destruct (Nat.eqb_spec (cnt (knots b2) t) 0) as [E2|E2];
    try (rewrite (lifted_none b1) by assumption); try (rewrite (lifted_none b2) by assumption);
    try (rewrite (lifted_some b1) by lia); try (rewrite (lifted_some b2) by lia); cbn [omax]; lia.
Qed.

Lemma combine_in : forall b1 b2 deg t, (degree b1 <= deg)%nat -> (degree b2 <= deg)%nat ->
  (In t (knots (combine_bases b1 b2 deg)) <-> In t (knots b1) \/ In t (knots b2)).
Proof.
  intros. rewrite !in_cnt, combine_mult by assumption.
  destruct (Nat.eqb_spec (cnt (knots b1) t) 0); destruct (Nat.eqb_spec (cnt (knots b2) t) 0); lia.
Qed.

Lemma combine_clamped : forall b1 b2 deg lo hi, (degree b1 <= deg)%nat -> (degree b2 <= deg)%nat ->
  clamped_on b1 lo hi -> clamped_on b2 lo hi -> clamped_on (combine_bases b1 b2 deg) lo hi.
Proof.
  intros b1 b2 deg lo hi H1 H2 C1 C2.
  destruct (clamped_count _ _ _ C1) as [L1 [G1 [LH R1]]].
  destruct (clamped_count _ _ _ C2) as [L2 [G2 [_ R2]]].
  apply count_clamped; auto.
  - apply combine_nondecreasing.
  - rewrite combine_mult, L1, L2 by assumption.
    rewrite !(proj2 (Nat.eqb_neq _ 0)) by lia. rewrite combine_degree. lia.
  - rewrite combine_mult, G1, G2 by assumption.
    rewrite !(proj2 (Nat.eqb_neq _ 0)) by lia. rewrite combine_degree. lia.
  - intros u I. apply combine_in in I; auto. destruct I; auto.
Qed.

Lemma clamped_refines : forall b b1 lo hi r, clamped_on b lo hi -> clamped_on b1 lo hi ->
  keeps_knots b b1 lo hi r -> refines b b1 r.
Proof.
  intros b b1 lo hi r C C1 K. destruct (clamped_dom _ _ _ C) as [D1 D2].
  destruct (clamped_dom _ _ _ C1) as [E1 E2]. unfold refines. rewrite D1, D2, E1, E2.
  split; [lra|]. split; [lra|]. intros t Ht I. apply K; auto. apply in_cnt in I. exact I.
Qed.

Lemma combine_keeps_l : forall b1 b2 deg lo hi, (degree b1 <= deg)%nat -> (degree b2 <= deg)%nat ->
  keeps_knots (combine_bases b1 b2 deg) b1 lo hi (deg - degree b1).
Proof.
  intros b1 b2 deg lo hi H1 H2 t _ M. unfold mult in *. fold (cnt (knots b1) t) in *.
  fold (cnt (knots (combine_bases b1 b2 deg)) t). rewrite combine_mult by assumption.
  rewrite (proj2 (Nat.eqb_neq (cnt (knots b1) t) 0)) by lia. lia.
Qed.
Lemma combine_keeps_r : forall b1 b2 deg lo hi, (degree b1 <= deg)%nat -> (degree b2 <= deg)%nat ->
  keeps_knots (combine_bases b1 b2 deg) b2 lo hi (deg - degree b2).
Proof.
  intros b1 b2 deg lo hi H1 H2 t _ M. unfold mult in *. fold (cnt (knots b2) t) in *.
  fold (cnt (knots (combine_bases b1 b2 deg)) t). rewrite combine_mult by assumption.
  rewrite (proj2 (Nat.eqb_neq (cnt (knots b2) t) 0)) by lia. lia.
Qed.

(** ** the grid *)
Lemma argmax_go_lt : forall l i best v n, (best < n)%nat -> (i + length l <= n)%nat ->
  (argmax_go l i best v < n)%nat.
Proof.
  induction l as [|a l IH]; intros i best v n H1 H2; simpl in *; [exact H1|].
  destruct (Rltb v a); apply IH; lia.
Qed.
Lemma argmax_lt : forall l, (0 < length l)%nat -> (argmax l < length l)%nat.
Proof.
  intros [|a l] H; simpl in *; [lia|]. apply argmax_go_lt; lia.
Qed.
Lemma maxpos_lt : forall b j, (maxpos b j < no_points)%nat.
Proof.
  intros. unfold maxpos.
  replace no_points with (length (map (fun i => nth j (eval_basis b (grid_pt b i)) 0) (seq 0 no_points))) at 2
    by (rewrite map_length, seq_length; reflexivity).
  apply argmax_lt. rewrite map_length, seq_length. unfold no_points. lia.
Qed.

Lemma hd_nth : forall (l : list R), hd 0 l = nth 0 l 0.
Proof. intros [|a l]; reflexivity. Qed.
Lemma last_nth_R : forall (l : list R), last l 0 = nth (length l - 1) l 0.
Proof.
  induction l as [|a l IH]; [reflexivity|]. destruct l as [|c l]; [reflexivity|].
  change (last (a :: c :: l) 0) with (last (c :: l) 0). rewrite IH.
  simpl length. replace (S (S (length l)) - 1)%nat with (S (S (length l) - 1)) by lia. reflexivity.
Qed.

Lemma grid_range : forall b lo hi i, clamped_on b lo hi -> (i < no_points)%nat -> lo <= grid_pt b i <= hi.
Proof.
  intros b lo hi i C Hi. destruct (clamped_count _ _ _ C) as [_ [_ [LH _]]].
  destruct C as [_ [_ [E1 E2]]]. unfold grid_pt. rewrite hd_nth, last_nth_R, E1, E2.
  assert (P : 0 < INR (no_points - 1)) by (apply lt_0_INR; unfold no_points; lia).
  assert (Q : 0 <= INR i <= INR (no_points - 1)).
  { split; [apply pos_INR|apply le_INR; lia]. }
  assert (E : INR i * ((hi - lo) / INR (no_points - 1)) = (hi - lo) * (INR i / INR (no_points - 1)))
    by (field; lra).
  rewrite E.
  assert (Z : 0 <= INR i / INR (no_points - 1) <= 1).
  { split.
    - apply Rmult_le_pos; [lra|]. left. apply Rinv_0_lt_compat. exact P.
    - apply Rmult_le_reg_r with (INR (no_points - 1)); [exact P|].
      unfold Rdiv. rewrite Rmult_assoc, Rinv_l by lra. lra. }
  assert (0 <= (hi - lo) * (INR i / INR (no_points - 1))) by (apply Rmult_le_pos; lra).
  assert ((hi - lo) * (INR i / INR (no_points - 1)) <= (hi - lo) * 1) by (apply Rmult_le_compat_l; lra).
  lra.
Qed.

(** ** representation on clamped bases *)
Lemma clamped_one : forall b s lo hi, clamped_on b lo hi -> clamped_on (sbasis s) lo hi -> sized s ->
  (degree (sbasis s) <= degree b)%nat ->
  keeps_knots b (sbasis s) lo hi (degree b - degree (sbasis s)) ->
  exists c, length c = blen b /\ forall x, lo <= x <= hi -> dot (eval_basis b x) c = call s x.
Proof.
  intros b s lo hi C C1 SZ D K.
  destruct (represent_one b s) as [c [L H]]; auto.
  - apply C.
  - apply C1.
  - apply (clamped_refines _ _ lo hi); assumption.
  - exists c. split; [exact L|]. intros x Hx.
    destruct (active_exists b x) as [J A]; [apply C|apply (clamped_in b lo hi); auto|].
    change (call (mkS b c) x = call s x). apply (H x J A).
    + apply (clamped_in _ lo hi); auto.
    + rewrite (proj1 (clamped_dom _ _ _ C)), (proj1 (clamped_dom _ _ _ C1)).
      destruct (Req_dec x lo); [right; assumption|left; lra].
Qed.

Lemma clamped_two : forall b s1 s2 lo hi, clamped_on b lo hi ->
  clamped_on (sbasis s1) lo hi -> clamped_on (sbasis s2) lo hi -> sized s1 -> sized s2 ->
  degree b = (degree (sbasis s1) + degree (sbasis s2))%nat ->
  keeps_knots b (sbasis s1) lo hi (degree (sbasis s2)) ->
  keeps_knots b (sbasis s2) lo hi (degree (sbasis s1)) ->
  exists c, length c = blen b /\
    forall x, lo <= x <= hi -> dot (eval_basis b x) c = call s1 x * call s2 x.
Proof.
  intros b s1 s2 lo hi C C1 C2 S1 S2 D K1 K2.
  destruct (represent_product b s1 s2) as [c [L H]]; auto.
  - apply C.
  - apply C1.
  - apply C2.
  - apply (clamped_refines _ _ lo hi); assumption.
  - apply (clamped_refines _ _ lo hi); assumption.
  - exists c. split; [exact L|]. intros x Hx.
    destruct (active_exists b x) as [J A]; [apply C|apply (clamped_in b lo hi); auto|].
    change (call (mkS b c) x = call s1 x * call s2 x). apply (H x J A).
    + apply (clamped_in _ lo hi); auto.
    + apply (clamped_in _ lo hi); auto.
    + rewrite (proj1 (clamped_dom _ _ _ C)), (proj1 (clamped_dom _ _ _ C1)), (proj1 (clamped_dom _ _ _ C2)).
      destruct (Req_dec x lo); [right; split; assumption|left; lra].
Qed.

(** ** T.dot(c) *)
Lemma dot_nil_r : forall u, dot u [] = 0.
Proof. intros [|a u]; reflexivity. Qed.

Lemma map_nth_seq_id : forall (l : list R), map (fun i => nth i l 0) (seq 0 (length l)) = l.
Proof.
  intros l. apply list_nth_ext.
  - rewrite map_length, seq_length. reflexivity.
  - intros i Hi. rewrite map_length, seq_length in Hi. rewrite nth_map_seq by exact Hi. reflexivity.
Qed.

Lemma dot_map_add : forall n u f g, dot u (map (fun i => f i + g i) (seq 0 n))
  = dot u (map f (seq 0 n)) + dot u (map g (seq 0 n)).
Proof.
  intros n. generalize 0%nat. induction n as [|n IH]; intros k u f g; simpl.
  - rewrite !dot_nil_r. ring.
  - destruct u as [|a u]; simpl; [ring|]. rewrite IH. ring.
Qed.
Lemma dot_map_scal : forall n u f a, dot u (map (fun i => f i * a) (seq 0 n))
  = dot u (map f (seq 0 n)) * a.
Proof.
  intros n. generalize 0%nat. induction n as [|n IH]; intros k u f a; simpl.
  - rewrite !dot_nil_r. ring.
  - destruct u as [|e u]; simpl; [ring|]. rewrite IH. ring.
Qed.
Lemma dot_map_zero : forall n u, dot u (map (fun _ : nat => 0) (seq 0 n)) = 0.
Proof.
  intros n. generalize 0%nat. induction n as [|n IH]; intros k [|a u]; simpl; try reflexivity.
  rewrite IH. ring.
Qed.

Lemma dot_cols : forall u cols c n, (forall col, In col cols -> length col = n) ->
  dot u (cols_dot n cols c) = dot (map (dot u) cols) c.
Proof.
  intros u cols c n. revert c. induction cols as [|col cols IH]; intros c L.
  - unfold cols_dot. simpl. apply dot_map_zero.
  - destruct c as [|c0 c].
    + rewrite dot_nil_r. unfold cols_dot. simpl. apply dot_map_zero.
    + unfold cols_dot. simpl dot. simpl map.
      rewrite dot_map_add, dot_map_scal.
      fold (cols_dot n cols c). rewrite IH by (intros; apply L; right; assumption).
      assert (LC : length col = n) by (apply L; left; reflexivity).
      rewrite <- LC at 1. rewrite map_nth_seq_id. reflexivity.
Qed.

Lemma cols_dot_length : forall n cols c, length (cols_dot n cols c) = n.
Proof. intros. unfold cols_dot. rewrite map_length, seq_length. reflexivity. Qed.

Lemma size_nonneg : forall c, 0 <= size_of c.
Proof. induction c; simpl; [lra|]. pose proof (Rabs_pos a). lra. Qed.

Lemma dot_close : forall u v c e, length u = length v -> 0 <= e ->
  (forall i, (i < length u)%nat -> Rabs (nth i u 0 - nth i v 0) <= e) ->
  Rabs (dot u c - dot v c) <= e * size_of c.
Proof.
  induction u as [|a u IH]; intros [|w v] c e L E H; simpl in L; try discriminate.
  - simpl. rewrite Rminus_0_r, Rabs_R0. apply Rmult_le_pos; [exact E|apply size_nonneg].
  - destruct c as [|c0 c]; simpl.
    + rewrite Rminus_0_r, Rabs_R0. lra.
    + replace (a * c0 + dot u c - (w * c0 + dot v c)) with ((a - w) * c0 + (dot u c - dot v c)) by ring.
      apply Rle_trans with (Rabs ((a - w) * c0) + Rabs (dot u c - dot v c)); [apply Rabs_triang|].
      rewrite Rabs_mult.
      assert (Rabs (a - w) * Rabs c0 <= e * Rabs c0).
      { apply Rmult_le_compat_r; [apply Rabs_pos|]. apply (H 0%nat). simpl; lia. }
      assert (Rabs (dot u c - dot v c) <= e * size_of c).
      { apply IH; [lia|exact E|]. intros i Hi. apply (H (S i)). simpl; lia. }
      lra.
Qed.

(** all columns of a transformation, when each right-hand side is representable *)
Lemma transform_all : forall tol b other w T lo hi (g : nat -> R -> R), 0 <= tol ->
  clamped_on b lo hi -> transform tol b other w = Some T ->
  (forall i c, (i < no_points)%nat -> (c < w)%nat -> nth c (other i) 0 = g c (grid_pt b i)) ->
  (forall c, (c < w)%nat -> exists cs, length cs = blen b /\
     forall x, lo <= x <= hi -> dot (eval_basis b x) cs = g c x) ->
  length T = w /\ (forall col, In col T -> length col = blen b) /\
  forall x c, lo <= x <= hi -> (c < w)%nat ->
    Rabs (dot (eval_basis b x) (nth c T []) - g c x) <= tol.
Proof.
  intros tol b other w T lo hi g HT C TT HO HG.
  assert (LT : length T = w).
  { unfold transform in TT. apply oall_spec in TT.
    rewrite <- (map_length Some T), <- TT, map_length, seq_length. reflexivity. }
  assert (COL : forall c, (c < w)%nat -> exists cs, length cs = blen b /\ nth c T [] = map (zap tol) cs /\
     forall x, lo <= x <= hi -> dot (eval_basis b x) cs = g c x).
  { intros c Hc. destruct (HG c Hc) as [cs [L H]]. exists cs. split; [exact L|]. split; [|exact H].
    apply (transform_column tol b other w T c cs Hc TT L).
    intros j Hj. rewrite H by (apply (grid_range b lo hi); auto; apply maxpos_lt).
    symmetry. apply HO; [apply maxpos_lt|exact Hc]. }
  split; [exact LT|]. split.
  - intros col I. destruct (In_nth _ _ [] I) as [c [Hc E]]. rewrite LT in Hc.
    destruct (COL c Hc) as [cs [L [E' _]]]. rewrite <- E, E', map_length. exact L.
  - intros x c Hx Hc. destruct (COL c Hc) as [cs [L [E H]]]. rewrite E, <- (H x Hx).
    apply zap_dot; auto.
    + apply C.
    + apply (clamped_in b lo hi); auto.
Qed.

Lemma call_unit : forall b c x, (c < blen b)%nat ->
  call (mkS b (unitv (blen b) c)) x = nth c (eval_basis b x) 0.
Proof.
  intros. unfold call. simpl. rewrite <- (blen_eval b x). apply dot_unitv. rewrite blen_eval. exact H.
Qed.
Lemma unitv_length : forall n i, length (unitv n i) = n.
Proof. intros. unfold unitv. rewrite map_length, seq_length. reflexivity. Qed.

(** self(x) . T = other(x), up to the zeroed entries *)
Theorem transform_basis_close : forall tol b b1 T lo hi, 0 <= tol ->
  clamped_on b lo hi -> clamped_on b1 lo hi -> (degree b1 <= degree b)%nat ->
  keeps_knots b b1 lo hi (degree b - degree b1) ->
  transform_basis tol b b1 = Some T ->
  length T = blen b1 /\ (forall col, In col T -> length col = blen b) /\
  forall x c, lo <= x <= hi -> (c < blen b1)%nat ->
    Rabs (dot (eval_basis b x) (nth c T []) - nth c (eval_basis b1 x) 0) <= tol.
Proof.
  intros tol b b1 T lo hi HT C C1 D K TT. unfold transform_basis in TT.
  apply (transform_all tol b _ (blen b1) T lo hi (fun c x => nth c (eval_basis b1 x) 0) HT C TT).
  - reflexivity.
  - intros c Hc. destruct (clamped_one b (mkS b1 (unitv (blen b1) c)) lo hi) as [cs [L H]]; auto.
    + unfold sized. simpl. apply unitv_length.
    + exists cs. split; [exact L|]. intros x Hx. rewrite H by exact Hx. apply call_unit. exact Hc.
Qed.

Lemma transform_call : forall tol b s T lo hi x, 0 <= tol ->
  clamped_on b lo hi -> clamped_on (sbasis s) lo hi -> sized s -> (degree (sbasis s) <= degree b)%nat ->
  keeps_knots b (sbasis s) lo hi (degree b - degree (sbasis s)) ->
  transform_basis tol b (sbasis s) = Some T -> lo <= x <= hi ->
  Rabs (dot (eval_basis b x) (cols_dot (blen b) T (coeffs s)) - call s x) <= tol * size_of (coeffs s).
Proof.
  intros tol b s T lo hi x HT C C1 SZ D K TT Hx.
  destruct (transform_basis_close tol b (sbasis s) T lo hi HT C C1 D K TT) as [LT [LC CL]].
  rewrite dot_cols by exact LC. unfold call. apply dot_close; auto.
  - rewrite map_length, blen_eval. exact LT.
  - intros i Hi. rewrite map_length in Hi.
    rewrite (nth_indep _ 0 (dot (eval_basis b x) [])) by (rewrite map_length; exact Hi).
    rewrite map_nth. apply CL; auto. lia.
Qed.
