(** Proofs: linear algebra on lists and the z-update. *)

From Coq Require Import List Arith Reals Lia Lra.
From Verif Require Import Admm_Model Admm_Spec.
Import ListNotations.
Open Scope R_scope.

(** ** Vectors *)

Lemma dot_inner : forall a b, dot a b = inner a b.
Proof. reflexivity. Qed.

Lemma vsub_minus : forall a b, vsub a b = minus a b.
Proof. induction a; intros [|y b]; simpl; trivial. unfold vsub in *. simpl. now rewrite IHa. Qed.

Lemma mv_rows : forall A x, mv A x = apply_rows A x.
Proof. intros. unfold mv, apply_rows. apply map_ext. intros. apply dot_inner. Qed.

Lemma map2_length : forall f a b, length a = length b -> length (map2 f a b) = length a.
Proof. induction a; intros [|y b] H; simpl in *; trivial; try lia. f_equal. apply IHa. lia. Qed.

Lemma vadd_length : forall a b, length a = length b -> length (vadd a b) = length a.
Proof. intros; now apply map2_length. Qed.

Lemma vsub_length : forall a b, length a = length b -> length (vsub a b) = length a.
Proof. intros; now apply map2_length. Qed.

Lemma vscale_length : forall c a, length (vscale c a) = length a.
Proof. intros. apply map_length. Qed.

Lemma mv_length : forall A x, length (mv A x) = length A.
Proof. intros. apply map_length. Qed.

Lemma dot_comm : forall a b, dot a b = dot b a.
Proof. induction a; intros [|y b]; simpl; trivial. rewrite IHa. ring. Qed.

Lemma dot_nil_r : forall a, dot a [] = 0.
Proof. now destruct a. Qed.

Lemma dot_add_r : forall a b c, length b = length c -> dot a (vadd b c) = dot a b + dot a c.
Proof.
  unfold vadd. induction a as [|x a IH]; intros [|y b] [|z c] H; simpl in *; try lra; try lia.
  rewrite IH by lia. ring.
Qed.

Lemma dot_sub_r : forall a b c, length b = length c -> dot a (vsub b c) = dot a b - dot a c.
Proof.
  unfold vsub. induction a as [|x a IH]; intros [|y b] [|z c] H; simpl in *; try lra; try lia.
  rewrite IH by lia. ring.
Qed.

Lemma dot_scale_r : forall k a b, dot a (vscale k b) = k * dot a b.
Proof.
  intros k a. unfold vscale. induction a as [|x a IH]; intros [|y b]; simpl; try ring. rewrite IH. ring.
Qed.

Lemma dot_add_l : forall a b c, length a = length b -> dot (vadd a b) c = dot a c + dot b c.
Proof. intros. rewrite dot_comm, dot_add_r by trivial. now rewrite !(dot_comm c). Qed.

Lemma dot_sub_l : forall a b c, length a = length b -> dot (vsub a b) c = dot a c - dot b c.
Proof. intros. rewrite dot_comm, dot_sub_r by trivial. now rewrite !(dot_comm c). Qed.

Lemma dot_scale_l : forall k a b, dot (vscale k a) b = k * dot a b.
Proof. intros. now rewrite dot_comm, dot_scale_r, dot_comm. Qed.

Lemma dot_zero_l : forall n a, dot (repeat 0 n) a = 0.
Proof. induction n; intros [|x a]; simpl; trivial. rewrite IHn. ring. Qed.

Lemma dot_zero_r : forall n a, dot a (repeat 0 n) = 0.
Proof. intros. now rewrite dot_comm, dot_zero_l. Qed.

Lemma sqn_nonneg : forall a, 0 <= sqn a.
Proof.
  unfold sqn. induction a; simpl; [lra|]. pose proof (Rle_0_sqr a) as H. unfold Rsqr in H. lra.
Qed.

Lemma sqn_zero : forall a, sqn a = 0 -> a = repeat 0 (length a).
Proof.
  unfold sqn. induction a as [|x a IH]; simpl; trivial. intros H.
  pose proof (Rle_0_sqr x) as P. unfold Rsqr in P. pose proof (sqn_nonneg a) as Q. unfold sqn in Q.
  assert (x * x = 0) by lra. assert (dot a a = 0) by lra.
  f_equal; [|now apply IH]. destruct (Rmult_integral _ _ H0); trivial.
Qed.

Lemma sqn_repeat0 : forall n, sqn (repeat 0 n) = 0.
Proof. intros. apply dot_zero_l. Qed.

Lemma vsub_zero : forall a b, length a = length b -> vsub a b = repeat 0 (length a) -> a = b.
Proof.
  unfold vsub. induction a as [|x a IH]; intros [|y b] H E; simpl in *; try lia; trivial.
  injection E as E1 E2. f_equal; [lra|]. apply IH; [lia|trivial].
Qed.

Lemma vsub_self : forall a, vsub a a = repeat 0 (length a).
Proof. unfold vsub. induction a; simpl; trivial. rewrite IHa. f_equal. lra. Qed.

Lemma sqn_vsub_zero : forall a b, length a = length b -> (sqn (vsub a b) = 0 <-> a = b).
Proof.
  intros a b H. split.
  - intros E. apply sqn_zero in E. rewrite vsub_length in E by trivial. now apply vsub_zero.
  - intros ->. rewrite vsub_self. apply sqn_repeat0.
Qed.

Lemma vec_ext : forall a b : vec, length a = length b -> (forall k, nth k a 0 = nth k b 0) -> a = b.
Proof.
  induction a as [|x a IH]; intros [|y b] H E; simpl in *; try lia; trivial.
  f_equal; [exact (E 0%nat)|]. apply IH; [lia|]. intros k. exact (E (S k)).
Qed.

Lemma map2_nth : forall f a b k, length a = length b -> f 0 0 = 0 ->
  nth k (map2 f a b) 0 = f (nth k a 0) (nth k b 0).
Proof.
  induction a as [|x a IH]; intros [|y b] k H E; simpl in *; try lia.
  - now destruct k.
  - destruct k; trivial. apply IH; [lia|trivial].
Qed.

Lemma vadd_nth : forall a b k, length a = length b -> nth k (vadd a b) 0 = nth k a 0 + nth k b 0.
Proof. intros. apply (map2_nth Rplus); [trivial|lra]. Qed.

Lemma vsub_nth : forall a b k, length a = length b -> nth k (vsub a b) 0 = nth k a 0 - nth k b 0.
Proof. intros. apply (map2_nth Rminus); [trivial|lra]. Qed.

Lemma vscale_nth : forall c a k, nth k (vscale c a) 0 = c * nth k a 0.
Proof. intros. unfold vscale. replace 0 with (c * 0) at 1 by ring. now rewrite map_nth. Qed.

(** ** Matrices *)

Lemma rows_cons : forall n r A, rows n (r :: A) -> length r = n /\ rows n A.
Proof. intros n r A H. split; [apply H; simpl; auto|]. intros q Hq. apply H. simpl; auto. Qed.

Lemma mtv_length : forall n A mu, rows n A -> length (mtv n A mu) = n.
Proof.
  intros n A. induction A as [|r A IH]; intros mu H; simpl; [apply repeat_length|].
  destruct mu as [|m mu]; [apply repeat_length|]. apply rows_cons in H as [H1 H2].
  rewrite vadd_length; rewrite vscale_length; trivial. now rewrite IH.
Qed.

Lemma mtv_dot : forall n A mu w, rows n A -> dot (mtv n A mu) w = dot mu (mv A w).
Proof.
  intros n A. induction A as [|r A IH]; intros mu w H; simpl.
  - rewrite dot_nil_r. apply dot_zero_l.
  - destruct mu as [|m mu]; [apply dot_zero_l|]. apply rows_cons in H as [H1 H2].
    rewrite dot_add_l, dot_scale_l, IH by (trivial; rewrite vscale_length, mtv_length; trivial).
    reflexivity.
Qed.

Lemma mv_mtv : forall n A mu, rows n A -> mv (mmt A) mu = mv A (mtv n A mu).
Proof.
  intros n A mu H. unfold mv, mmt. rewrite map_map. apply map_ext_in. intros r Hr.
  rewrite (dot_comm r), mtv_dot by trivial. rewrite dot_comm. f_equal.
  unfold mv. apply map_ext. intros q. apply dot_comm.
Qed.

Lemma mv_scaled : forall c M mu, mv (map (vscale c) M) mu = vscale c (mv M mu).
Proof.
  intros. unfold mv, vscale at 2. rewrite !map_map. apply map_ext. intros. apply dot_scale_l.
Qed.

Lemma mv_add : forall A x y, length x = length y -> mv A (vadd x y) = vadd (mv A x) (mv A y).
Proof.
  intros A x y H. unfold mv, vadd at 2. induction A as [|r A IH]; simpl; trivial.
  rewrite IH, dot_add_r by trivial. reflexivity.
Qed.

Lemma mv_sub : forall A x y, length x = length y -> mv A (vsub x y) = vsub (mv A x) (mv A y).
Proof.
  intros A x y H. unfold mv, vsub at 2. induction A as [|r A IH]; simpl; trivial.
  rewrite IH, dot_sub_r by trivial. reflexivity.
Qed.

Lemma mv_scale : forall A c x, mv A (vscale c x) = vscale c (mv A x).
Proof.
  intros. unfold mv, vscale at 2. rewrite map_map. apply map_ext. intros. apply dot_scale_r.
Qed.

(** ** z-update *)

Section ZUpdate.
  Context (rho : R) (n : nat) (A : list vec) (b x l z : vec).
  Hypothesis Hrho : 0 < rho.
  Hypothesis HA : rows n A.
  Hypothesis Hb : length b = length A.
  Hypothesis Hx : length x = n.
  Hypothesis Hl : length l = n.
  Hypothesis Hz : upd_z rho n A b x l z.

  Lemma upd_f_length : length (upd_f rho x l) = n.
  Proof. unfold upd_f. rewrite vscale_length, vadd_length; rewrite ?vscale_length; congruence. Qed.

  Lemma upd_z_length : length z = n.
  Proof.
    destruct Hz as [mu [_ [_ ->]]]. unfold upd_z_of. rewrite vscale_length, vadd_length.
    - now apply mtv_length.
    - now rewrite mtv_length, upd_f_length.
  Qed.

  Lemma upd_z_feasible : mv A z = b.
  Proof.
    destruct Hz as [mu [Hmu [HG ->]]]. unfold upd_z_of.
    rewrite mv_scale, mv_add by (now rewrite mtv_length, upd_f_length).
    unfold upd_G in HG. rewrite mv_scaled, (mv_mtv n) in HG by trivial. unfold upd_h in HG.
    apply vec_ext.
    - rewrite vscale_length, vadd_length; now rewrite !mv_length.
    - intros k. apply (f_equal (fun v => nth k v 0)) in HG.
      rewrite vscale_nth in HG. rewrite vadd_nth in HG by (rewrite vscale_length, mv_length; trivial).
      rewrite vscale_nth in HG.
      rewrite vscale_nth, vadd_nth by (now rewrite !mv_length). lra.
  Qed.

  (** The multipliers after the update are a combination of the rows. *)
  Lemma upd_l_row_space : exists mu, length mu = length A /\ upd_l rho l x z = mtv n A mu.
  Proof.
    destruct Hz as [mu [Hmu [_ E]]]. exists mu. split; [trivial|].
    pose proof upd_z_length as Lz. apply vec_ext.
    - unfold upd_l. rewrite mtv_length by trivial.
      rewrite vadd_length; rewrite ?vscale_length, ?vsub_length; congruence.
    - intros k. unfold upd_l. rewrite vadd_nth, vscale_nth, vsub_nth
        by (rewrite ?vscale_length, ?vsub_length; congruence).
      rewrite E. unfold upd_z_of. rewrite vscale_nth, vadd_nth
        by (now rewrite mtv_length, upd_f_length).
      unfold upd_f. rewrite vscale_nth, vadd_nth, vscale_nth by (rewrite vscale_length; congruence).
      field. lra.
  Qed.

  Lemma upd_l_orthogonal : forall w, length w = n -> mv A w = repeat 0 (length A) ->
    dot (upd_l rho l x z) w = 0.
  Proof.
    intros w Hw H0. destruct upd_l_row_space as [mu [_ ->]].
    rewrite mtv_dot, H0 by trivial. apply dot_zero_r.
  Qed.

  Lemma upd_z_gap : forall z', length z' = n -> mv A z' = b ->
    augmented rho l x z' = augmented rho l x z + rho / 2 * sqn (vsub z' z).
  Proof.
    intros z' Hz' Hf. pose proof upd_z_length as Lz.
    assert (O : dot (upd_l rho l x z) (vsub z' z) = 0).
    { apply upd_l_orthogonal; [rewrite vsub_length; congruence|].
      rewrite mv_sub by congruence. rewrite Hf, upd_z_feasible, vsub_self. now rewrite Hb. }
    unfold upd_l in O. rewrite dot_add_l, dot_scale_l in O
      by (rewrite vscale_length, vsub_length; congruence).
    rewrite dot_sub_l in O by congruence.
    rewrite !dot_sub_r in O by congruence.
    unfold augmented. rewrite <- !vsub_minus, <- !dot_inner. unfold sqn.
    rewrite ?dot_sub_l, ?dot_sub_r by congruence.
    rewrite (dot_comm z' x), (dot_comm z x), (dot_comm z' z). nra.
  Qed.

  Lemma upd_z_optimal : forall z', length z' = n -> mv A z' = b ->
    augmented rho l x z <= augmented rho l x z'.
  Proof.
    intros z' H K. rewrite (upd_z_gap z' H K). pose proof (sqn_nonneg (vsub z' z)).
    assert (0 <= rho / 2 * sqn (vsub z' z)) by (apply Rmult_le_pos; lra). lra.
  Qed.

  Lemma upd_z_unique : forall z', length z' = n -> mv A z' = b ->
    augmented rho l x z' <= augmented rho l x z -> z' = z.
  Proof.
    intros z' H K L. rewrite (upd_z_gap z' H K) in L. pose proof (sqn_nonneg (vsub z' z)).
    assert (E : sqn (vsub z' z) = 0).
    { destruct (Rle_lt_or_eq_dec _ _ H0) as [P|P]; [|now symmetry].
      assert (0 < rho / 2 * sqn (vsub z' z)) by (apply Rmult_lt_0_compat; lra). lra. }
    apply sqn_vsub_zero in E; trivial. now rewrite upd_z_length.
  Qed.
End ZUpdate.

(** The matrix of the linear system is regular exactly when the rows of A are
    independent. *)
Lemma G_kernel : forall rho n A mu, 0 < rho -> rows n A -> length mu = length A ->
  (mv (upd_G rho A) mu = repeat 0 (length A) <-> mtv n A mu = repeat 0 n).
Proof.
  intros rho n A mu Hr HA Hm. unfold upd_G. rewrite mv_scaled, (mv_mtv n) by trivial. split.
  - intros H. assert (E : sqn (mtv n A mu) = 0).
    { unfold sqn. rewrite mtv_dot by trivial.
      assert (E : mv A (mtv n A mu) = repeat 0 (length A)).
      { apply vec_ext; [now rewrite mv_length, repeat_length|]. intros k.
        apply (f_equal (fun v => nth k v 0)) in H. rewrite vscale_nth in H.
        rewrite nth_repeat in H |- *.
        assert (P : - (1 / rho) <> 0).
        { assert (0 < 1 / rho) by (apply Rdiv_lt_0_compat; lra). lra. }
        apply (Rmult_eq_reg_l (- (1 / rho))); trivial. lra. }
      rewrite E. apply dot_zero_r. }
    apply sqn_zero in E. now rewrite mtv_length in E.
  - intros ->. apply vec_ext; [now rewrite vscale_length, mv_length, repeat_length|].
    intros k. rewrite vscale_nth, nth_repeat.
    assert (E : nth k (mv A (repeat 0 n)) 0 = 0).
    { destruct (nth_in_or_default k (mv A (repeat 0 n)) 0) as [I|I]; [|exact I].
      unfold mv in I at 2. apply in_map_iff in I as [r [<- _]]. apply dot_zero_r. }
    rewrite E. ring.
Qed.

Lemma G_regular : forall rho n A mu mu', 0 < rho -> rows n A -> independent n A ->
  length mu = length A -> length mu' = length A ->
  mv (upd_G rho A) mu = mv (upd_G rho A) mu' -> mu = mu'.
Proof.
  intros rho n A mu mu' Hr HA I H H' E.
  apply vsub_zero; [congruence|]. rewrite H. apply I; [rewrite vsub_length; congruence|].
  intros w Hw. rewrite <- mv_rows, <- dot_inner, <- (mtv_dot n) by trivial.
  assert (K : mtv n A (vsub mu mu') = repeat 0 n).
  { apply (proj1 (G_kernel rho n A (vsub mu mu') Hr HA ltac:(rewrite vsub_length; congruence))).
    rewrite mv_sub by congruence. rewrite E, vsub_self. f_equal. unfold upd_G, mmt.
    now rewrite mv_length, !map_length. }
  rewrite K. apply dot_zero_l.
Qed.

(** If the system can be solved at all, the outcome is unique even when the
    rows are dependent. *)
Lemma upd_z_function : forall rho n A b x l z z', 0 < rho -> rows n A -> length b = length A ->
  length x = n -> length l = n -> upd_z rho n A b x l z -> upd_z rho n A b x l z' -> z = z'.
Proof.
  intros rho n A b x l z z' Hr HA Hb Hx Hl H H'.
  apply (upd_z_unique rho n A b x l z' Hr HA Hb Hx Hl H').
  - now apply (upd_z_length rho n A b x l).
  - now apply (upd_z_feasible rho n A b x l z).
  - apply (upd_z_optimal rho n A b x l z Hr HA Hb Hx Hl H).
    + now apply (upd_z_length rho n A b x l).
    + now apply (upd_z_feasible rho n A b x l z').
Qed.
