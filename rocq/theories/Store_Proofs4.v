(** The transformations of the warm start, one spline at a time. *)
From Coq Require Import String Reals List Arith Bool Lia Lra ZArith QArith_base.
From Verif Require Import Spline_Model Spline_Spec Spline_Proofs Spline_Proofs2 Spline_Proofs3 Spline_Proofs5
  Splop_Model Splop_Spec Splop_Proofs Splop_Proofs2 Splop_Proofs4 Shift_Model Shift_Spec Shift_Proofs8
  Store_Model Store_Spec Store_Proofs Store_Proofs2 Store_Proofs3.
From Verif Require Concat_Proofs Opti_Model Opti_Proofs Opti_Proofs2 Timing_Model Multi_Model.
Import ListNotations.
Local Open Scope R_scope.
Local Notation length := List.length.

(* ---------- bases ---------- *)

Lemma eq_clamped_on : forall d K h, 0 < h -> (2 <= K)%nat -> clamped_on (equidistant d K h) 0 (INR K * h).
Proof.
  intros d K h H HK. split; [apply eq_wf; auto|]. split; [apply eq_clamped; auto|]. split.
  - rewrite (eq_kn' d K h HK 0 0) by lia. cbn. ring.
  - rewrite eq_len by auto. apply (eq_kn' d K h HK); lia.
Qed.

(** the basis on the rest of the motion is the old one squeezed *)
Lemma repeat_map_const : forall (f : R -> R) a n, map f (repeat a n) = repeat (f a) n.
Proof. intros. induction n as [|n IH]; [reflexivity|]. cbn. rewrite IH. reflexivity. Qed.
Lemma shifted_eq : forall b t K, (blen b = K + degree b)%nat -> (2 <= K)%nat ->
  let e := last (knots b) 0 in
  shifted_basis t b = scale_basis (equidistant (degree b) K ((e - t) / INR K)) 1 t.
Proof.
  intros b t K HK K1 e. unfold shifted_basis, scale_basis, equidistant. cbn [knots degree]. fold e. f_equal.
  assert (P : 0 < INR K) by (apply lt_0_INR; lia).
  rewrite !map_app, !repeat_map_const. replace (blen b - degree b + 1)%nat with (K + 1)%nat by lia.
  f_equal; [f_equal; ring|]. f_equal.
  - unfold linspace. rewrite map_map. apply map_ext_in. intros i Hi. replace (K + 1 - 1)%nat with K by lia. ring.
  - f_equal. field. lra.
Qed.
Lemma shifted_clamped : forall b t K, (blen b = K + degree b)%nat -> (2 <= K)%nat -> t < last (knots b) 0 ->
  clamped_on (shifted_basis t b) t (last (knots b) 0) /\ blen (shifted_basis t b) = blen b.
Proof.
  intros b t K HK K1 T. rewrite (shifted_eq b t K HK K1). assert (P : 0 < INR K) by (apply lt_0_INR; lia).
  set (e := last (knots b) 0) in *. assert (H : 0 < (e - t) / INR K) by (apply Rdiv_lt_0_compat; lra).
  pose proof (Concat_Proofs.scale_clamped _ _ _ 1 t Rlt_0_1 (eq_clamped_on (degree b) K _ H K1)) as C.
  replace (0 * 1 + t) with t in C by ring. replace (INR K * ((e - t) / INR K) * 1 + t) with e in C by (field; lra).
  split; [exact C|]. pose proof (eq_blen (degree b) K ((e - t) / INR K) K1) as B. unfold blen in *. cbn [knots degree scale_basis] in *.
  rewrite map_length. cbn [equidistant degree knots] in *. lia.
Qed.
Lemma eq_last_knot : forall d K h, 0 < h -> (2 <= K)%nat -> last (knots (equidistant d K h)) 0 = INR K * h.
Proof. intros d K h H HK. rewrite last_nth_R. apply (eq_clamped_on d K h H HK). Qed.
Lemma shifted_equidistant : forall d K h t, 0 < h -> (2 <= K)%nat ->
  shifted_basis t (equidistant d K h) = scale_basis (equidistant d K h) ((INR K * h - t) / (INR K * h)) t.
Proof.
  intros d K h t H HK. rewrite (shifted_eq _ t K (eq_blen d K h HK) HK). rewrite eq_last_knot by auto.
  change (degree (equidistant d K h)) with d. assert (P : 0 < INR K) by (apply lt_0_INR; lia).
  unfold scale_basis, equidistant. cbn [knots degree]. f_equal. rewrite !map_app, !repeat_map_const, !map_map.
  f_equal; [f_equal; ring|]. f_equal; [|f_equal; field; split; lra].
  apply map_ext. intros i. field. split; lra.
Qed.

(* ---------- which points are matched ---------- *)

Lemma argmax_max : forall (f : nat -> R) n i, (i < n)%nat -> f i <= f (argmax (map f (seq 0 n))).
Proof.
  intros f. 
  assert (G : forall m k best, (best < k)%nat -> 
     (f best <= f (argmax_go (map f (seq k m)) k best (f best)) /\
      forall i, (k <= i < k + m)%nat -> f i <= f (argmax_go (map f (seq k m)) k best (f best)))).
  { induction m as [|m IH]; intros k best Hb; cbn [seq map argmax_go]; [split; [lra|lia]|].
    destruct (Rltb (f best) (f k)) eqn:E.
    - apply Rltb_true in E. destruct (IH (S k) k (Nat.lt_succ_diag_r k)) as [A B]. split; [lra|].
      intros i Hi. destruct (Nat.eq_dec i k) as [->|N]; [exact A|apply B; lia].
    - apply Rltb_false in E. destruct (IH (S k) best) as [A B]; [lia|]. split; [exact A|].
      intros i Hi. destruct (Nat.eq_dec i k) as [->|N]; [lra|apply B; lia]. }
  intros n i Hi. destruct n as [|n]; [lia|]. cbn [seq map argmax]. destruct (G n 1%nat 0%nat Nat.lt_0_1) as [A B].
  destruct i as [|i]; [exact A|apply B; lia].
Qed.
Lemma grid_0 : forall b lo hi, clamped_on b lo hi -> grid_pt b 0 = lo.
Proof. intros b lo hi (W & C & L & H). unfold grid_pt. cbn [INR]. rewrite hd_nth, L. ring. Qed.
Lemma grid_last : forall b lo hi, clamped_on b lo hi -> grid_pt b (no_points - 1) = hi.
Proof.
  intros b lo hi (W & C & L & H). unfold grid_pt. rewrite hd_nth, last_nth_R, L, H. field.
  replace (no_points - 1)%nat with 500%nat by reflexivity. rewrite INR_IZR_INZ. apply not_0_IZR. discriminate.
Qed.
Lemma eval_left : forall b lo hi i, clamped_on b lo hi -> (i < blen b)%nat -> nth i (eval_basis b lo) 0 = if (i =? 0)%nat then 1 else 0.
Proof.
  intros b lo hi i C Hi. rewrite <- call_unit by exact Hi. destruct C as (W & (C1 & C2 & C3 & C4) & L & H).
  pose proof (call_left_end (mkS b (unitv (blen b) i))) as E. cbn [sbasis coeffs] in E. rewrite L in E. rewrite E; auto.
  - unfold unitv. rewrite (nth_indep _ 0 ((fun j => if (j =? i)%nat then 1 else 0) 0%nat)) by (rewrite map_length, seq_length; lia).
    rewrite (map_nth (fun j => if (j =? i)%nat then 1 else 0)), seq_nth by lia. cbn. destruct i; reflexivity.
  - unfold sized. cbn. rewrite unitv_length. reflexivity.
  - unfold dom_left. congruence.
Qed.
Lemma eval_right : forall b lo hi i, clamped_on b lo hi -> (i < blen b)%nat -> nth i (eval_basis b hi) 0 = if (i =? blen b - 1)%nat then 1 else 0.
Proof.
  intros b lo hi i C Hi. rewrite <- call_unit by exact Hi. destruct (clamped_dom b lo hi C) as [_ D]. destruct C as (W & (C1 & C2 & C3 & C4) & L & H).
  pose proof (call_right_end (mkS b (unitv (blen b) i))) as E. cbn [sbasis coeffs] in E. rewrite D in E. rewrite E; auto.
  - rewrite unitv_length. unfold unitv.
    rewrite (nth_indep _ 0 ((fun j => if (j =? i)%nat then 1 else 0) 0%nat)) by (rewrite map_length, seq_length; lia).
    rewrite (map_nth (fun j => if (j =? i)%nat then 1 else 0)), seq_nth by lia. cbn [plus]. rewrite Nat.eqb_sym. reflexivity.
  - unfold sized. cbn. rewrite unitv_length. reflexivity.
  - rewrite <- D. exact C4.
Qed.

Lemma maxpos_first : forall b lo hi, clamped_on b lo hi -> maxpos b 0 = 0%nat.
Proof.
  intros b lo hi C. assert (B : (0 < blen b)%nat) by (destruct C as [[_ L] _]; unfold blen; lia).
  unfold maxpos. apply argmax_spec; [unfold no_points; lia|lia|]. intros i Hi.
  rewrite (grid_0 b lo hi C), (eval_left b lo hi 0 C B). cbn.
  destruct (basis_nonneg b (grid_pt b i) (nth 0 (eval_basis b (grid_pt b i)) 0)) as [_ A]; auto.
  - apply C.
  - apply (clamped_in b lo hi); auto. apply grid_range; [exact C|lia].
  - apply nth_In. rewrite blen_eval. exact B.
Qed.
Lemma sum_one : forall v i, (forall a, In a v -> 0 <= a) -> total v = 1 -> (i < length v)%nat -> nth i v 0 = 1 ->
  forall j, (j < length v)%nat -> j <> i -> nth j v 0 = 0.
Proof.
  assert (N : forall v, (forall a, In a v -> 0 <= a) -> 0 <= total v).
  { induction v as [|a v IH]; intros H; cbn; [lra|]. pose proof (H a (or_introl eq_refl)). specialize (IH (fun x Hx => H x (or_intror Hx))). unfold total in IH. lra. }
  assert (Z : forall v, (forall a, In a v -> 0 <= a) -> total v = 0 -> forall j, nth j v 0 = 0).
  { induction v as [|a v IH]; intros H T j; [destruct j; reflexivity|]. cbn in T. pose proof (H a (or_introl eq_refl)).
    assert (Q : forall x, In x v -> 0 <= x) by (intros; apply H; right; assumption). pose proof (N v Q) as NV. unfold total in NV.
    destruct j; cbn; [lra|]. apply IH; auto. unfold total. lra. }
  assert (G : forall v i t, (forall a, In a v -> 0 <= a) -> total v = t -> (i < length v)%nat -> nth i v 0 = t ->
    forall j, (j < length v)%nat -> j <> i -> nth j v 0 = 0).
  { induction v as [|a v IH]; intros i t H T Hi E j Hj Hn; [cbn in Hi; lia|]. cbn in T. pose proof (H a (or_introl eq_refl)) as Ha.
    assert (Q : forall x, In x v -> 0 <= x) by (intros; apply H; right; assumption). pose proof (N v Q) as NV. unfold total in NV.
    destruct i as [|i].
    - cbn in E. destruct j; [lia|]. cbn. apply Z; auto. unfold total. lra.
    - cbn in E, Hi. assert (A : nth i v 0 <= fold_right Rplus 0 v).
      { clear - Q NV Hi. revert i Hi. induction v as [|x v IHv]; intros i Hi; [cbn in Hi; lia|].
        assert (Qv : forall y, In y v -> 0 <= y) by (intros; apply Q; right; assumption).
        assert (Sv : 0 <= fold_right Rplus 0 v). { clear - Qv. induction v as [|y v IH]; cbn; [lra|]. pose proof (Qv y (or_introl eq_refl)). specialize (IH (fun z Hz => Qv z (or_intror Hz))). lra. }
        pose proof (Q x (or_introl eq_refl)). destruct i; cbn; [lra|]. cbn in Hi. specialize (IHv Qv Sv i). assert (IHv' := IHv ltac:(lia)). lra. }
      destruct j as [|j]; cbn; [lra|]. cbn in Hj. apply (IH i (total v) Q eq_refl); [lia|unfold total; lra|lia|lia]. }
  intros v i H T. apply (G v i 1 H T).
Qed.
Lemma dot_one : forall u v i, length u = length v -> (i < length u)%nat -> nth i u 0 = 1 ->
  (forall j, (j < length u)%nat -> j <> i -> nth j u 0 = 0) -> dot u v = nth i v 0.
Proof.
  assert (Z : forall u v, (forall j, (j < length u)%nat -> nth j u 0 = 0) -> dot u v = 0).
  { induction u as [|a u IH]; intros [|c v] H; cbn; try reflexivity. pose proof (H 0%nat (Nat.lt_0_succ _)) as A. cbn in A. subst a.
    rewrite IH; [ring|]. intros j Hj. apply (H (S j)). cbn. lia. }
  induction u as [|a u IH]; intros [|c v] i L Hi E H; cbn in L, Hi; try lia. cbn [dot]. destruct i as [|i].
  - cbn in E. subst a. rewrite Z; [cbn; ring|]. intros j Hj. apply (H (S j)); [cbn; lia|lia].
  - pose proof (H 0%nat (Nat.lt_0_succ _) (Nat.neq_0_succ i)) as A. cbn in A. subst a. cbn in E. rewrite (IH v i); [cbn; ring|lia|lia|exact E|].
    intros j Hj Hn. apply (H (S j)); [cbn; lia|lia].
Qed.
Lemma greville_len : forall b, length (greville b) = blen b.
Proof. intros b. unfold greville. rewrite map_length, seq_length. reflexivity. Qed.
Lemma greville_last : forall b lo hi, clamped_on b lo hi -> (1 <= degree b)%nat -> nth (blen b - 1) (greville b) 0 = hi.
Proof.
  intros b lo hi C D. destruct (clamped_dom b lo hi C) as [_ R]. pose proof C as (W & (_ & C2 & _) & _ & H).
  pose proof (proj2 W) as L. assert (B : (blen b - 1 < blen b)%nat) by (unfold blen; lia).
  destruct (greville_bounds b (blen b - 1) W D B) as [A1 A2].
  replace (blen b - 1 + 1)%nat with (length (knots b) - degree b - 1)%nat in A1 by (unfold blen; lia).
  rewrite C2, H in A1.
  assert (A3 : nth (blen b - 1 + degree b) (knots b) 0 <= hi).
  { rewrite <- H. apply (proj1 W); unfold blen; lia. }
  lra.
Qed.
Lemma maxpos_last : forall b lo hi, clamped_on b lo hi -> (1 <= degree b)%nat -> maxpos b (blen b - 1) = (no_points - 1)%nat.
Proof.
  intros b lo hi C D. assert (B : (blen b - 1 < blen b)%nat) by (destruct C as [[_ L] _]; unfold blen; lia).
  pose proof C as (W & _ & _ & _).
  unfold maxpos. apply argmax_spec; [unfold no_points; lia| |unfold no_points; lia]. intros i Hi.
  rewrite (grid_last b lo hi C), (eval_right b lo hi _ C B), Nat.eqb_refl.
  set (x := grid_pt b i).
  assert (Ri : lo <= x <= hi) by (apply grid_range; [exact C|lia]).
  assert (Dx : in_domain b x) by (apply (clamped_in b lo hi); auto).
  assert (NN : forall a, In a (eval_basis b x) -> 0 <= a) by (intros a Ha; apply (basis_nonneg b x a W Dx Ha)).
  destruct (basis_nonneg b x (nth (blen b - 1) (eval_basis b x) 0) W Dx) as [_ [A|A]]; [apply nth_In; rewrite blen_eval; exact B|exact A|].
  exfalso. assert (X : x = hi).
  { rewrite <- (greville_identity b x W D Dx). unfold call. cbn [sbasis coeffs].
    rewrite (dot_one (eval_basis b x) (greville b) (blen b - 1)).
    - apply (greville_last b lo hi C D).
    - rewrite blen_eval, greville_len. reflexivity.
    - rewrite blen_eval. exact B.
    - exact A.
    - intros j Hj Hn. apply (sum_one (eval_basis b x) (blen b - 1)); auto; [apply partition_of_unity; auto|rewrite blen_eval; exact B]. }
  assert (LH : lo < hi) by apply (clamped_count b lo hi C).
  unfold x, grid_pt in X. rewrite hd_nth, last_nth_R in X. destruct C as (_ & _ & L & H). rewrite L, H in X.
  assert (I1 : INR i < INR (no_points - 1)) by (apply lt_INR; exact Hi).
  assert (I2 : 0 < INR (no_points - 1)) by (apply lt_0_INR; unfold no_points; lia).
  assert (Y : INR i * ((hi - lo) / INR (no_points - 1)) = hi - lo) by lra.
  assert (Z : INR i * ((hi - lo) / INR (no_points - 1)) * INR (no_points - 1) = INR i * (hi - lo)) by (field; lra).
  rewrite Y in Z. nra.
Qed.

(* ---------- shift_spline ---------- *)

Lemma transform_points : forall tol b b1 T j c, 0 <= tol -> well_formed b ->
  transform_basis tol b b1 = Some T -> (j < blen b)%nat -> in_domain b (grid_pt b (maxpos b j)) -> length c = blen b1 ->
  Rabs (dot (eval_basis b (grid_pt b (maxpos b j))) (cols_dot (blen b) T c) - dot (eval_basis b1 (grid_pt b (maxpos b j))) c) <= tol * size_of c.
Proof.
  intros tol b b1 T j c T0 W E Hj Dx Lc. unfold transform_basis, transform in E. apply oall_spec in E.
  assert (LT : length T = blen b1) by (apply (f_equal (@List.length _)) in E; rewrite !map_length, seq_length in E; congruence).
  assert (G : forall k, (k < blen b1)%nat -> exists x, length x = blen b /\ nth k T [] = map (zap tol) x /\
     dot (eval_basis b (grid_pt b (maxpos b j))) x = nth k (eval_basis b1 (grid_pt b (maxpos b j))) 0).
  { intros k Hk.
    assert (Ek : nth k (map (fun c0 => match gsolve (blen b) (combine (colloc b) (map (fun j0 => nth c0 (eval_basis b1 (grid_pt b (maxpos b j0))) 0) (seq 0 (blen b)))) with
            | Some x => Some (map (zap tol) x) | None => None end) (seq 0 (blen b1))) None = Some (nth k T [])).
    { rewrite E. rewrite (nth_indep _ None (Some [])) by (rewrite map_length; lia). rewrite (map_nth Some). reflexivity. }
    rewrite (nth_indep _ None (match gsolve (blen b) (combine (colloc b) (map (fun j0 => nth 0%nat (eval_basis b1 (grid_pt b (maxpos b j0))) 0) (seq 0 (blen b)))) with
            | Some x => Some (map (zap tol) x) | None => None end)) in Ek by (rewrite map_length, seq_length; exact Hk).
    rewrite (map_nth (fun c0 => match gsolve (blen b) (combine (colloc b) (map (fun j0 => nth c0 (eval_basis b1 (grid_pt b (maxpos b j0))) 0) (seq 0 (blen b)))) with
            | Some x => Some (map (zap tol) x) | None => None end)) in Ek. rewrite seq_nth in Ek by exact Hk. cbn [plus] in Ek.
    destruct (gsolve _ _) as [x|] eqn:Gx; [|discriminate]. apply (f_equal (fun o => match o with Some l => l | None => [] end)) in Ek.
    apply gsolve_spec in Gx.
    - destruct Gx as [Lx Sx]. exists x. split; [exact Lx|]. split; [symmetry; exact Ek|].
      assert (F : Forall (holds_row x) (combine (colloc b) (map (fun j0 => nth k (eval_basis b1 (grid_pt b (maxpos b j0))) 0) (seq 0 (blen b)))))
        by (apply (proj2 (Sx x Lx)); reflexivity).
      rewrite Forall_forall in F. unfold colloc in F.
      apply (F (eval_basis b (grid_pt b (maxpos b j)), nth k (eval_basis b1 (grid_pt b (maxpos b j))) 0)).
      apply in_combine_map. exists j. split; [apply in_seq; lia|reflexivity].
    - intros [ra rb] I. apply in_combine_l in I. apply colloc_len in I. exact I. }
  set (x := grid_pt b (maxpos b j)) in *.
  assert (LC : forall col, In col T -> length col = blen b).
  { intros col Hin. apply (In_nth T col []) in Hin. destruct Hin as (k & Hk & <-). destruct (G k) as (y & Ly & -> & _); [lia|]. rewrite map_length. exact Ly. }
  rewrite dot_cols by exact LC. apply dot_close; [rewrite map_length, blen_eval; exact LT|exact T0|].
  intros i Hi. rewrite map_length in Hi. rewrite (nth_indep _ 0 (dot (eval_basis b x) [])) by (rewrite map_length; exact Hi). rewrite (map_nth (dot (eval_basis b x))).
  destruct (G i) as (y & Ly & -> & Ey); [lia|]. rewrite <- Ey. apply zap_dot; auto.
Qed.

(** the new spline agrees with the old one at a point per basis function, where
    that function is largest, and at both ends *)
Theorem shift_spline_points : forall tol c t b c2 K, 0 <= tol -> (blen b = K + degree b)%nat -> (2 <= K)%nat -> t < last (knots b) 0 ->
  length c = blen b -> shift_spline tol c t b = Some c2 ->
  let b2 := shifted_basis t b in let e := last (knots b) 0 in
  clamped_on b2 t e /\ blen b2 = blen b /\ length c2 = blen b /\
  (forall j, (j < blen b)%nat -> exists i, (i < no_points)%nat /\
     (forall i', (i' < no_points)%nat -> nth j (eval_basis b2 (grid_pt b2 i')) 0 <= nth j (eval_basis b2 (grid_pt b2 i)) 0) /\
     Rabs (call (mkS b2 c2) (grid_pt b2 i) - call (mkS b c) (grid_pt b2 i)) <= tol * size_of c) /\
  Rabs (call (mkS b2 c2) t - call (mkS b c) t) <= tol * size_of c /\
  ((1 <= degree b)%nat -> Rabs (call (mkS b2 c2) e - call (mkS b c) e) <= tol * size_of c).
Proof.
  intros tol c t b c2 K T0 HK K2 Ht Lc E b2 e. destruct (shifted_clamped b t K HK K2 Ht) as [C B]. fold b2 in C, B. fold e in C.
  unfold shift_spline in E. fold b2 in E. destruct (transform_basis tol b2 b) as [T|] eqn:ET; [|discriminate].
  apply (f_equal (fun o => match o with Some l => l | None => [] end)) in E. subst c2.
  assert (P : forall j, (j < blen b2)%nat -> Rabs (call (mkS b2 (cols_dot (blen b2) T c)) (grid_pt b2 (maxpos b2 j)) - call (mkS b c) (grid_pt b2 (maxpos b2 j))) <= tol * size_of c).
  { intros j Hj. apply transform_points; auto; [apply C|]. apply (clamped_in b2 t e); auto. apply grid_range; [exact C|apply maxpos_lt]. }
  assert (B0 : (1 <= blen b2)%nat) by (destruct C as [[_ L] _]; unfold blen; lia).
  split; [exact C|]. split; [exact B|]. split; [rewrite cols_dot_length; exact B|]. split; [|split].
  - intros j Hj. exists (maxpos b2 j). split; [apply maxpos_lt|]. split; [|apply P; lia].
    intros i' Hi'. apply (argmax_max (fun i => nth j (eval_basis b2 (grid_pt b2 i)) 0) no_points i' Hi').
  - pose proof (P 0%nat B0) as Q. rewrite (maxpos_first b2 t e C), (grid_0 b2 t e C) in Q. exact Q.
  - intros D. pose proof (P (blen b2 - 1)%nat ltac:(lia)) as Q. rewrite (maxpos_last b2 t e C D), (grid_last b2 t e C) in Q. exact Q.
Qed.
(** what that means for the guess, which uses the coefficients with the old basis *)
Theorem shift_spline_guess : forall tol c t d K h c2, 0 <= tol -> 0 < h -> (2 <= K)%nat -> 0 <= t < INR K * h ->
  let b := equidistant d K h in let e := INR K * h in
  length c = (K + d)%nat -> shift_spline tol c t b = Some c2 ->
  length c2 = (K + d)%nat /\
  (forall x, call (mkS b c2) x = call (mkS (shifted_basis t b) c2) (t + x * ((e - t) / e))) /\
  Rabs (call (mkS b c2) 0 - call (mkS b c) t) <= tol * size_of c /\
  ((1 <= d)%nat -> Rabs (call (mkS b c2) e - call (mkS b c) e) <= tol * size_of c).
Proof.
  intros tol c t d K h c2 T0 H HK Ht b e Lc E.
  assert (BL : blen b = (K + d)%nat) by (apply eq_blen; exact HK). assert (LK : last (knots b) 0 = e) by (apply eq_last_knot; auto).
  assert (EP : 0 < e) by (unfold e in *; lra).
  destruct (shift_spline_points tol c t b c2 K T0) as (C & B & L & _ & P & Q); auto; [rewrite LK; apply Ht|rewrite BL; exact Lc|].
  rewrite LK in *.
  assert (S : forall x, call (mkS b c2) x = call (mkS (shifted_basis t b) c2) (t + x * ((e - t) / e))).
  { intros x. unfold b at 2. rewrite shifted_equidistant by auto. fold b e.
    assert (F : 0 < (e - t) / e) by (apply Rdiv_lt_0_compat; unfold e in *; lra).
    rewrite <- (scale_call (mkS b c2) ((e - t) / e) t x F). unfold scale. cbn [sbasis coeffs]. f_equal. ring. }
  split; [rewrite L; exact BL|]. split; [exact S|]. split.
  - rewrite S. replace (t + 0 * ((e - t) / e)) with t by ring. exact P.
  - intros D. rewrite S. replace (t + e * ((e - t) / e)) with e by (field; lra). apply Q. exact D.
Qed.
