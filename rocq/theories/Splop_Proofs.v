(** Combined bases, the linear solver and the basis transformation. *)
From Coq Require Import Reals Lra Lia List Arith Bool ZArith Permutation.
From Verif Require Import Blossom Spline_Model Spline_Spec Spline_Proofs Spline_Proofs2 Spline_Proofs4
  Span_Proofs Span_Proofs2 Splop_Model Splop_Spec.
Import ListNotations.
Local Open Scope R_scope.

(** ** sorting *)
Lemma insert_sorted_perm : forall t l, Permutation (insert_sorted t l) (t :: l).
Proof.
  induction l as [|a l IH]; simpl; [apply Permutation_refl|].
  destruct (Rleb t a); [apply Permutation_refl|].
  apply perm_trans with (a :: t :: l); [constructor; exact IH|apply perm_swap].
Qed.
Lemma py_sorted_perm : forall l, Permutation (py_sorted l) l.
Proof.
  induction l as [|a l IH]; simpl; [constructor|].
  apply perm_trans with (a :: py_sorted l); [apply insert_sorted_perm|constructor; exact IH].
Qed.
Lemma nondecreasing_nil : nondecreasing [].
Proof. intros i j _ H. simpl in H. lia. Qed.
Lemma py_sorted_nondecreasing : forall l, nondecreasing (py_sorted l).
Proof.
  induction l; simpl; [apply nondecreasing_nil|]. apply insert_sorted_nondecreasing. exact IHl.
Qed.
Lemma cnt_perm : forall l l' t, Permutation l l' -> cnt l t = cnt l' t.
Proof.
  intros l l' t P. unfold cnt. apply (proj1 (Permutation_count_occ Req_EM_T l l') P).
Qed.
Lemma cnt_app : forall l l' t, cnt (l ++ l') t = (cnt l t + cnt l' t)%nat.
Proof. intros. unfold cnt. apply count_occ_app. Qed.
Lemma cnt_repeat : forall t u n, cnt (repeat u n) t = if Req_EM_T u t then n else 0%nat.
Proof.
  intros t u n. unfold cnt. induction n as [|n IH]; simpl.
  - destruct (Req_EM_T u t); reflexivity.
  - rewrite IH. destruct (Req_EM_T u t); reflexivity.
Qed.
Lemma cnt_times : forall t u m, cnt (times u m) t
  = if Req_EM_T u t then match m with Some z => Z.to_nat z | None => 0%nat end else 0%nat.
Proof.
  intros. destruct m as [z|]; simpl.
  - apply cnt_repeat.
  - destruct (Req_EM_T u t); reflexivity.
Qed.
Lemma cnt_flat_map : forall (m : R -> option Z) l t, NoDup l ->
  cnt (flat_map (fun u => times u (m u)) l) t
  = if in_dec Req_EM_T t l then match m t with Some z => Z.to_nat z | None => 0%nat end else 0%nat.
Proof.
  induction l as [|a l IH]; intros t ND; [reflexivity|].
  simpl flat_map. rewrite cnt_app, cnt_times. inversion ND; subst. rewrite IH by assumption.
  destruct (in_dec Req_EM_T t l) as [I|I]; destruct (in_dec Req_EM_T t (a :: l)) as [I'|I'];
    destruct (Req_EM_T a t) as [E|E]; subst; simpl in *; try tauto; try lia; try (destruct (m t); lia).
Qed.

(** ** multiplicities of the combined basis *)
Lemma combine_nondecreasing : forall b1 b2 deg, nondecreasing (knots (combine_bases b1 b2 deg)).
Proof. intros. apply py_sorted_nondecreasing. Qed.
Lemma combine_degree : forall b1 b2 deg, degree (combine_bases b1 b2 deg) = deg.
Proof. reflexivity. Qed.

Lemma combine_cnt : forall b1 b2 deg t,
  cnt (knots (combine_bases b1 b2 deg)) t
  = match omax (lifted b1 deg t) (lifted b2 deg t) with Some z => Z.to_nat z | None => 0%nat end.
Proof.
  intros. unfold combine_bases. simpl knots. rewrite (cnt_perm _ _ t (py_sorted_perm _)).
  rewrite cnt_flat_map by apply NoDup_nodup.
  destruct (in_dec Req_EM_T t (nodup Req_EM_T (knots b1 ++ knots b2))) as [I|I]; [reflexivity|].
  assert (H1 : ~ In t (knots b1)) by (intros H; apply I; apply nodup_In, in_or_app; left; exact H).
  assert (H2 : ~ In t (knots b2)) by (intros H; apply I; apply nodup_In, in_or_app; right; exact H).
  apply (count_occ_not_In Req_EM_T) in H1. apply (count_occ_not_In Req_EM_T) in H2.
  unfold lifted, occurrences. rewrite H1, H2. reflexivity.
Qed.

(** ** exact elimination *)
Lemma take_pivot_spec : forall rows p rest, take_pivot rows = Some (p, rest) ->
  Permutation rows (p :: rest) /\ hd 0 (fst p) <> 0.
Proof.
  induction rows as [|r rows IH]; intros p rest H; [discriminate|]. simpl in H.
  destruct (Reqb (hd 0 (fst r)) 0) eqn:E.
  - destruct (take_pivot rows) as [[q others]|] eqn:T; [|discriminate]. inversion H; subst.
    destruct (IH p others eq_refl) as [P N]. split; [|exact N].
    apply perm_trans with (r :: p :: others); [constructor; exact P|apply perm_swap].
  - inversion H; subst. apply Reqb_false in E. split; [apply Permutation_refl|exact E].
Qed.

Lemma dot_sub : forall u v x f, length u = length v -> 
  dot (map (fun q => fst q - f * snd q) (combine u v)) x = dot u x - f * dot v x.
Proof.
  induction u as [|a u IH]; intros [|c v] [|z x] f L; simpl in *; try lra; try discriminate.
  rewrite IH by lia. ring.
Qed.


(** the computed vector is the one and only solution *)
Theorem gsolve_spec : forall n rows x, (forall r, In r rows -> length (fst r) = n) ->
  gsolve n rows = Some x ->
  length x = n /\ forall y, length y = n -> (Forall (holds_row y) rows <-> y = x).
Proof.
  induction n as [|n IH]; intros rows x L H; simpl in H.
  - destruct rows; [|discriminate]. inversion H; subst. split; [reflexivity|].
    intros y Hy. destruct y; [|discriminate]. split; [reflexivity|constructor].
  - destruct (take_pivot rows) as [[p rest]|] eqn:T; [|discriminate].
    destruct (take_pivot_spec _ _ _ T) as [P NZ].
    destruct (gsolve n (map (eliminate p) rest)) as [x'|] eqn:G; [|discriminate].
    inversion H; subst; clear H.
    assert (LP : length (fst p) = S n).
    { apply L. apply (Permutation_in p (Permutation_sym P)). left; reflexivity. }
    assert (LR : forall r, In r rest -> length (fst r) = S n).
    { intros r I. apply L. apply (Permutation_in r (Permutation_sym P)). right; exact I. }
    destruct (IH (map (eliminate p) rest) x') as [LX U].
    { intros r I. apply in_map_iff in I. destruct I as [q [E I]]. subst r. unfold eliminate. cbn [fst].
      rewrite map_length, combine_length. specialize (LR q I).
      destruct (fst q) as [|? qa]; [discriminate|]. destruct (fst p) as [|? pa]; [discriminate|].
      simpl in *. lia. }
    { exact G. }
    split; [simpl; lia|].
    intros y Hy. destruct y as [|y0 y]; [discriminate|]. simpl in Hy.
    destruct p as [pa pb]. cbn [fst snd] in *. destruct pa as [|p0 pa]; [discriminate|].
    simpl in LP. cbn [hd tl] in *.
    assert (EL : forall r, In r rest -> holds_row (y0 :: y) (p0 :: pa, pb) ->
       (holds_row (y0 :: y) r <-> holds_row y (eliminate (p0 :: pa, pb) r))).
    { intros [ra rb] I HP. specialize (LR _ I). cbn [fst] in LR. destruct ra as [|r0 ra]; [discriminate|].
      unfold holds_row, eliminate in *. cbn [fst snd hd tl dot] in *. simpl in LR.
      rewrite dot_sub by lia.
      split; intros E.
      - rewrite <- E, <- HP. field. exact NZ.
      - assert (r0 * y0 = r0 / p0 * (p0 * y0)) by (field; exact NZ).
        rewrite H. replace (p0 * y0) with (pb - dot pa y) by lra.
        replace (r0 / p0 * (pb - dot pa y)) with (r0 / p0 * pb - r0 / p0 * dot pa y) by ring. lra. }
    split.
    + intros F. apply Forall_forall in F || idtac.
      assert (FP : holds_row (y0 :: y) (p0 :: pa, pb)).
      { rewrite Forall_forall in F. apply F. apply (Permutation_in _ (Permutation_sym P)). left; reflexivity. }
      assert (FR : Forall (holds_row y) (map (eliminate (p0 :: pa, pb)) rest)).
      { apply Forall_forall. intros r I. apply in_map_iff in I. destruct I as [q [E I]]. subst r.
        apply EL; auto. rewrite Forall_forall in F. apply F.
        apply (Permutation_in _ (Permutation_sym P)). right; exact I. }
      apply U in FR; [|lia]. subst y. f_equal. unfold holds_row in FP. cbn [fst snd dot] in FP.
      rewrite <- FP. field. exact NZ.
    + intros E. inversion E; subst; clear E.
      assert (FP : holds_row ((pb - dot pa x') / p0 :: x') (p0 :: pa, pb)).
      { unfold holds_row. cbn [fst snd dot]. field. exact NZ. }
      apply Forall_forall. intros r I. apply (Permutation_in r P) in I.
      destruct I as [<-|I]; [exact FP|]. apply EL; auto.
      assert (FR : Forall (holds_row x') (map (eliminate (p0 :: pa, pb)) rest)) by (apply U; auto).
      rewrite Forall_forall in FR. apply FR. apply in_map. exact I.
Qed.

Lemma oall_spec : forall A (l : list (option A)) r, oall l = Some r -> l = map Some r.
Proof.
  induction l as [|[a|] l IH]; intros r H; simpl in H; try discriminate.
  - inversion H; subst. reflexivity.
  - destruct (oall l) as [q|]; [|discriminate]. inversion H; subst. simpl. f_equal. apply IH. reflexivity.
Qed.

(** ** transformation: a column is the unique representation *)
Lemma blen_eval : forall b x, length (eval_basis b x) = blen b.
Proof. intros. rewrite eval_basis_length. reflexivity. Qed.

Lemma colloc_len : forall b r, In r (colloc b) -> length r = blen b.
Proof. intros b r I. apply in_map_iff in I. destruct I as [j [E _]]. subst r. apply blen_eval. Qed.

Lemma in_combine_map : forall (A B : Type) (f : nat -> A) (g : nat -> B) l p,
  In p (combine (map f l) (map g l)) <-> exists j, In j l /\ p = (f j, g j).
Proof.
  induction l as [|a l IH]; intros p; simpl.
  - split; [tauto|intros [j [[] _]]].
  - rewrite IH. split.
    + intros [H|[j [H1 H2]]]; [exists a; auto|exists j; auto].
    + intros [j [[<-|H1] H2]]; [left; auto|right; exists j; auto].
Qed.

Theorem transform_column : forall tol b other w T c cs, (c < w)%nat ->
  transform tol b other w = Some T -> length cs = blen b ->
  (forall j, (j < blen b)%nat ->
     dot (eval_basis b (grid_pt b (maxpos b j))) cs = nth c (other (maxpos b j)) 0) ->
  nth c T [] = map (zap tol) cs.
Proof.
  intros tol b other w T c cs Hc HT L HR.
  unfold transform in HT. apply oall_spec in HT.
  assert (LT : length T = w).
  { rewrite <- (map_length Some T), <- HT, map_length, seq_length. reflexivity. }
  set (f := fun c0 => match gsolve (blen b)
            (combine (colloc b) (map (fun j => nth c0 (other (maxpos b j)) 0) (seq 0 (blen b)))) with
    | None => None | Some x => Some (map (zap tol) x) end) in HT.
  assert (E : nth_error (map f (seq 0 w)) c = nth_error (map Some T) c) by (rewrite HT; reflexivity).
  assert (E1 : nth_error (map f (seq 0 w)) c = Some (f c)).
  { apply map_nth_error. rewrite nth_error_nth' with (d := 0%nat) by (rewrite seq_length; exact Hc).
    rewrite seq_nth by exact Hc. reflexivity. }
  assert (E2 : nth_error (map Some T) c = Some (Some (nth c T []))).
  { apply map_nth_error. apply nth_error_nth'. lia. }
  rewrite E1, E2 in E. inversion E as [E3]. clear E E1 E2.
  unfold f in E3.
  destruct (gsolve _ _) as [x|] eqn:G; [|discriminate]. inversion E3 as [E4]. clear E3.
  apply gsolve_spec in G.
  - destruct G as [LX U]. f_equal. symmetry. apply U; auto.
    apply Forall_forall. intros p I. unfold colloc in I. apply in_combine_map in I.
    destruct I as [j [Hj E]]. subst p. unfold holds_row. cbn [fst snd]. apply in_seq in Hj. apply HR. lia.
  - intros [ra rb] I. apply in_combine_l in I. apply colloc_len in I. exact I.
Qed.

(** ** the zeroing of tiny entries *)
Lemma zap_diff : forall tol t, 0 <= tol -> Rabs (zap tol t - t) <= tol.
Proof.
  intros tol t H. unfold zap. destruct (Rltb (Rabs t) tol) eqn:E.
  - apply Rltb_true in E. replace (0 - t) with (- t) by ring. rewrite Rabs_Ropp. lra.
  - replace (t - t) with 0 by ring. rewrite Rabs_R0. exact H.
Qed.
Lemma zap_0 : forall t, zap 0 t = t.
Proof.
  intros t. unfold zap. replace (Rltb (Rabs t) 0) with false; [reflexivity|].
  symmetry. apply Rltb_false. apply Rabs_pos.
Qed.
Lemma zap_keep : forall tol t, t = 0 \/ tol <= Rabs t -> zap tol t = t.
Proof.
  intros tol t H. unfold zap. destruct (Rltb (Rabs t) tol) eqn:E; [|reflexivity].
  apply Rltb_true in E. destruct H as [->|H]; [reflexivity|lra].
Qed.

Lemma dot_bound : forall u v e, length u = length v -> (forall a, In a u -> 0 <= a) ->
  (forall c, In c v -> Rabs c <= e) -> Rabs (dot u v) <= e * total u.
Proof.
  induction u as [|a u IH]; intros [|c v] e L HU HV; simpl in *; try discriminate.
  - rewrite Rabs_R0. lra.
  - apply Rle_trans with (Rabs (a * c) + Rabs (dot u v)); [apply Rabs_triang|].
    rewrite Rabs_mult. rewrite (Rabs_right a) by (apply Rle_ge; apply HU; left; reflexivity).
    assert (a * Rabs c <= a * e).
    { apply Rmult_le_compat_l; [apply HU; left; reflexivity|apply HV; left; reflexivity]. }
    assert (Rabs (dot u v) <= e * total u).
    { apply IH; [lia| |]; intros; [apply HU|apply HV]; right; assumption. }
    change (fold_right Rplus 0 u) with (total u). lra.
Qed.

Lemma dot_minus : forall u v w, length v = length w ->
  dot u v - dot u w = dot u (map (fun p => fst p - snd p) (combine v w)).
Proof.
  induction u as [|a u IH]; intros [|c v] [|e w] L; simpl in *; try lra; try discriminate.
  rewrite <- IH by lia. ring.
Qed.

Lemma zap_dot : forall tol b x cs, 0 <= tol -> well_formed b -> in_domain b x -> length cs = blen b ->
  Rabs (dot (eval_basis b x) (map (zap tol) cs) - dot (eval_basis b x) cs) <= tol.
Proof.
  intros tol b x cs H W ID L. rewrite dot_minus by apply map_length.
  apply Rle_trans with (tol * total (eval_basis b x)).
  - apply dot_bound.
    + rewrite map_length, combine_length, map_length, blen_eval. lia.
    + intros a I. apply (basis_nonneg b x a W ID I).
    + intros c I. apply in_map_iff in I. destruct I as [[p q] [E I]]. cbn [fst snd] in E. subst c.
      assert (E : p = zap tol q).
      { clear - I. revert I. induction cs as [|a cs IH]; simpl; [tauto|].
        intros [E|I]; [inversion E; reflexivity|auto]. }
      subst p. apply zap_diff. exact H.
  - rewrite partition_of_unity by assumption. lra.
Qed.
