(** Sums, products and powers of polynomials always succeed. *)
From Coq Require Import Reals List Arith Bool ZArith Lia Lra.
From Verif Require Import Spline_Model Spline_Spec Spline_Proofs Spline_Proofs2 Spline_Proofs3 Span_Proofs2 Splop_Model Splop_Spec Splop_Proofs Splop_Proofs2 Splop_Proofs3 Splop_Proofs4
  Vehicle_Model Lift_Model Lift_Spec Lift_Proofs Loop_Examples Bern_Spec Bern_Proofs.
Import ListNotations.
Local Open Scope R_scope.

(** ** where x^j (1-x)^k grows *)
Definition hump (j k : nat) (x : R) : R := x ^ j * (1 - x) ^ k.
Lemma hump_deriv : forall j k x,
  derivable_pt_lim (hump j k) x (INR j * x ^ pred j * (1 - x) ^ k + x ^ j * (INR k * (1 - x) ^ pred k * (0 - 1))).
Proof.
  intros j k x. unfold hump. apply (derivable_pt_lim_mult (fun u => u ^ j) (fun u => (1 - u) ^ k)).
  - apply derivable_pt_lim_pow.
  - apply (derivable_pt_lim_comp (fun u => 1 - u) (fun u => u ^ k)).
    + apply (derivable_pt_lim_minus (fct_cte 1) id); [apply derivable_pt_lim_const|apply derivable_pt_lim_id].
    + apply derivable_pt_lim_pow.
Qed.
Lemma hump_up : forall j k x y, (0 < j)%nat -> 0 <= x -> x < y -> y <= 1 -> INR (j + k) * y <= INR j -> hump j k x < hump j k y.
Proof.
  intros j k x y J X0 XY Y1 H.
  destruct (MVT_cor2 (hump j k) (fun x => INR j * x ^ pred j * (1 - x) ^ k + x ^ j * (INR k * (1 - x) ^ pred k * (0 - 1))) x y XY) as (c & E & I).
  { intros c _. apply hump_deriv. }
  assert (P : 0 < INR j * c ^ pred j * (1 - c) ^ k + c ^ j * (INR k * (1 - c) ^ pred k * (0 - 1))).
  { assert (JP : 0 < INR j) by (apply lt_0_INR; exact J). assert (A : 0 < c ^ pred j) by (apply pow_lt; lra).
    destruct j as [|j]; [lia|]. cbn [pred] in *.
    destruct k as [|k].
    - cbn [pow pred]. change (INR 0) with 0. assert (0 < INR (S j) * c ^ j) by (apply Rmult_lt_0_compat; assumption). lra.
    - cbn [pred]. assert (B : 0 < (1 - c) ^ k) by (apply pow_lt; lra).
      replace (INR (S j) * c ^ j * (1 - c) ^ S k + c ^ S j * (INR (S k) * (1 - c) ^ k * (0 - 1)))
        with (c ^ j * (1 - c) ^ k * (INR (S j) - INR (S j + S k) * c)) by (rewrite plus_INR; cbn [pow]; ring).
      apply Rmult_lt_0_compat; [apply Rmult_lt_0_compat; assumption|].
      assert (0 < INR (S j + S k)) by (apply lt_0_INR; lia).
      assert (INR (S j + S k) * c < INR (S j + S k) * y) by (apply Rmult_lt_compat_l; lra). lra. }
  assert (0 < (INR j * c ^ pred j * (1 - c) ^ k + c ^ j * (INR k * (1 - c) ^ pred k * (0 - 1))) * (y - x)) by (apply Rmult_lt_0_compat; lra). lra.
Qed.
Lemma hump_flip : forall j k x, hump j k x = hump k j (1 - x).
Proof. intros. unfold hump. replace (1 - (1 - x)) with x by ring. ring. Qed.
Lemma hump_down : forall j k x y, (0 < k)%nat -> 0 <= x -> x < y -> y <= 1 -> INR j <= INR (j + k) * x -> hump j k y < hump j k x.
Proof.
  intros j k x y K X0 XY Y1 H. rewrite (hump_flip j k y), (hump_flip j k x). apply hump_up; try lra; [exact K|].
  rewrite Nat.add_comm. rewrite plus_INR in *. lra.
Qed.

Lemma bern_grid : forall d i, grid_pt (bern d) i = INR i / 500.
Proof.
  intros d i. unfold grid_pt, bern. cbn [knots].
  assert (H : hd 0 (repeat 0 (d + 1) ++ repeat 1 (d + 1)) = 0) by (rewrite Nat.add_1_r; reflexivity).
  assert (L : last (repeat 0 (d + 1) ++ repeat 1 (d + 1)) 0 = 1).
  { assert (E : repeat 1 (d + 1) = repeat 1 d ++ [1]) by apply repeat_app. rewrite E, app_assoc. apply last_last. }
  rewrite H, L. replace (INR (no_points - 1)) with 500; [field|]. unfold no_points. rewrite INR_IZR_INZ. reflexivity.
Qed.
Lemma maxpos_bern : forall d j p, (j <= d)%nat -> (p < no_points)%nat ->
  hump j (d - j) (INR p / 500) <= hump j (d - j) (INR (maxpos (bern d) j) / 500).
Proof.
  intros d j p J P.
  pose proof (maxpos_max (bern d) j p P) as A.
  pose proof (maxpos_lt (bern d) j) as M.
  generalize dependent (maxpos (bern d) j). intros m A M. rewrite !bern_grid in A.
  rewrite (bern_eval d (INR p / 500) j (grid_frac p P) J), (bern_eval d (INR m / 500) j (grid_frac m M) J), !bp_closed in A by exact J.
  pose proof (pc_pos d j J) as C. unfold hump. apply (Rmult_le_reg_l (pc d j)); [exact C|]. lra.
Qed.
Lemma maxpos_low : forall d j, (0 < d)%nat -> (0 < j <= d)%nat -> (500 * j < (maxpos (bern d) j + 1) * d)%nat.
Proof.
  intros d j D J. apply Nat.nle_gt. intros H. remember (maxpos (bern d) j) as m eqn:EM.
  assert (MM : (m + 1 <= 500)%nat) by nia.
  pose proof (maxpos_bern d j (m + 1) ltac:(lia) ltac:(unfold no_points; lia)) as A. rewrite <- EM in A.
  assert (R500 : INR (m + 1) <= 500) by (apply le_INR in MM; rewrite INR_500 in MM; exact MM).
  assert (B : hump j (d - j) (INR m / 500) < hump j (d - j) (INR (m + 1) / 500)).
  { pose proof (pos_INR m). rewrite plus_INR in *. cbn [INR] in *. apply hump_up; [lia|lra|lra|lra|].
    replace (j + (d - j))%nat with d by lia.
    apply le_INR in H. rewrite !mult_INR, plus_INR, INR_500 in H. cbn [INR] in H.
    apply (Rmult_le_reg_l 500); [lra|]. lra. }
  lra.
Qed.
Lemma hump_falls : forall d j m, (j < d)%nat -> (1 <= m <= 500)%nat -> (500 * j + d <= m * d)%nat ->
  hump j (d - j) (INR m / 500) < hump j (d - j) (INR (m - 1) / 500).
Proof.
  intros d j m J M H.
  assert (R500 : INR m <= 500) by (destruct M as [_ K]; apply le_INR in K; rewrite INR_500 in K; exact K).
  assert (Q : INR (m - 1) = INR m - 1) by (rewrite minus_INR by apply M; reflexivity).
  pose proof (pos_INR (m - 1)) as P0. rewrite Q in *. apply hump_down; [lia|lra|lra|lra|].
  replace (j + (d - j))%nat with d by lia.
  apply le_INR in H. rewrite plus_INR, !mult_INR, INR_500 in H. lra.
Qed.
Lemma maxpos_high : forall d j, (0 < d)%nat -> (j < d)%nat -> (maxpos (bern d) j * d < 500 * j + d)%nat.
Proof.
  intros d j D J. apply Nat.nle_gt. intros H. pose proof (maxpos_lt (bern d) j) as ML.
  assert (M : (1 <= maxpos (bern d) j <= 500)%nat).
  { unfold no_points in ML. revert H ML. generalize (maxpos (bern d) j). intros m H ML. split; [nia|lia]. }
  assert (L : (maxpos (bern d) j - 1 < no_points)%nat) by (revert ML; generalize (maxpos (bern d) j) no_points; intros; lia).
  pose proof (maxpos_bern d j (maxpos (bern d) j - 1) (Nat.lt_le_incl _ _ J) L) as A.
  pose proof (hump_falls d j (maxpos (bern d) j) J M H) as B. exact (Rlt_not_le _ _ B A).
Qed.
Lemma maxpos_rises : forall d j, (0 < d)%nat -> (d <= 250)%nat -> (j < d)%nat -> (maxpos (bern d) j < maxpos (bern d) (S j))%nat.
Proof.
  intros d j D L J. pose proof (maxpos_high d j D J) as H. pose proof (maxpos_low d (S j) D ltac:(lia)) as K.
  remember (maxpos (bern d) j) as m. remember (maxpos (bern d) (S j)) as m'. clear Heqm Heqm'. nia.
Qed.
Lemma maxpos_order : forall d i j, (0 < d)%nat -> (d <= 250)%nat -> (i < j <= d)%nat -> (maxpos (bern d) i < maxpos (bern d) j)%nat.
Proof.
  intros d i j D L. induction j as [|j IH]; intros H; [lia|].
  pose proof (maxpos_rises d j D L ltac:(lia)) as A. destruct (Nat.eq_dec i j) as [->|N]; [exact A|]. specialize (IH ltac:(lia)). lia.
Qed.
Lemma maxpos_last_bern : forall d, (0 < d)%nat -> maxpos (bern d) d = 500%nat.
Proof.
  intros d D. pose proof (maxpos_low d d D ltac:(lia)) as A. pose proof (maxpos_lt (bern d) d) as B. unfold no_points in B.
  remember (maxpos (bern d) d) as m. clear Heqm. nia.
Qed.

Theorem bern_regular : forall d, (d <= 250)%nat -> only_zero (blen (bern d)) (colloc (bern d)).
Proof.
  intros d D y L H. rewrite bern_blen in *.
  assert (Z : forall a, In a y -> a = 0).
  { destruct d as [|d'] eqn:ED.
    - apply (bern_unique 0 [] y L); [constructor|reflexivity|intros x []|].
      intros x [[]| ->]. specialize (H (eval_basis (bern 0) (grid_pt (bern 0) (maxpos (bern 0) 0)))).
      rewrite bern_row in * by (try lra; rewrite bern_grid; apply grid_frac, maxpos_lt).
      apply H. unfold colloc. rewrite bern_blen. left. rewrite bern_row; [reflexivity|rewrite bern_grid; apply grid_frac, maxpos_lt].
    - rewrite <- ED in *. assert (D0 : (0 < d)%nat) by lia.
      assert (HR : forall j, (j <= d)%nat -> dot (eval_basis (bern d) (grid_pt (bern d) (maxpos (bern d) j))) y = 0).
      { intros j Hj. apply H. unfold colloc. apply in_map_iff. exists j. split; [reflexivity|]. apply in_seq. rewrite bern_blen. lia. }
      apply (bern_unique d (map (fun j => grid_pt (bern d) (maxpos (bern d) j)) (seq 0 d)) y L).
      + assert (G : forall k n, (k + n <= d)%nat -> NoDup (map (fun j => grid_pt (bern d) (maxpos (bern d) j)) (seq k n))).
        { intros k n. revert k. induction n as [|n IH]; intros k Hk; [constructor|]. cbn [seq map]. constructor; [|apply IH; lia].
          intros K. apply in_map_iff in K. destruct K as (i & E & Hi). apply in_seq in Hi.
          pose proof (maxpos_order d k i D0 D ltac:(lia)) as O. rewrite !bern_grid in E.
          apply lt_INR in O. lra. }
        apply G. lia.
      + rewrite map_length, seq_length. reflexivity.
      + intros x Hx. apply in_map_iff in Hx. destruct Hx as (j & <- & Hj). apply in_seq in Hj. rewrite bern_grid.
        pose proof (maxpos_order d j d D0 D ltac:(lia)) as O. rewrite (maxpos_last_bern d D0) in O. apply lt_INR in O. rewrite INR_500 in O.
        pose proof (pos_INR (maxpos (bern d) j)). lra.
      + intros x [Hx| ->].
        * apply in_map_iff in Hx. destruct Hx as (j & <- & Hj). apply in_seq in Hj. apply HR. lia.
        * pose proof (HR d (Nat.le_refl d)) as E. rewrite (maxpos_last_bern d D0), bern_grid, INR_500 in E.
          replace (500 / 500) with 1 in E by field. exact E. }
  clear -L Z. revert L Z. generalize (S d). intros n. revert y. induction n as [|n IH]; intros [|a y] L Z; cbn in *; try discriminate; [reflexivity|].
  f_equal; [apply Z; auto|apply IH; [lia|auto]].
Qed.

(** ** the bases of sums, products and derivatives *)
Lemma sorted_cons : forall a l, nondecreasing (a :: l) -> nondecreasing l /\ forall x, In x l -> a <= x.
Proof.
  intros a l N. split.
  - intros i j Hij Hj. apply (N (S i) (S j)); cbn; lia.
  - intros x Hx. apply (In_nth _ _ 0) in Hx. destruct Hx as (n & Hn & <-). apply (N 0%nat (S n)); cbn; lia.
Qed.
Lemma sorted_count_eq : forall l l', nondecreasing l -> nondecreasing l' -> (forall t, cnt l t = cnt l' t) -> l = l'.
Proof.
  assert (IN : forall l x, In x l <-> (0 < cnt l x)%nat) by (intros; unfold cnt; apply count_occ_In).
  induction l as [|a l IH]; intros [|b l'] N N' C.
  - reflexivity.
  - specialize (C b). unfold cnt in C. cbn in C. destruct (Req_EM_T b b); [discriminate|congruence].
  - specialize (C a). unfold cnt in C. cbn in C. destruct (Req_EM_T a a); [discriminate|congruence].
  - destruct (sorted_cons a l N) as [N1 A]. destruct (sorted_cons b l' N') as [N2 B].
    assert (E : a = b).
    { assert (I1 : In a (b :: l')) by (apply IN; rewrite <- C; apply IN; left; reflexivity).
      assert (I2 : In b (a :: l)) by (apply IN; rewrite C; apply IN; left; reflexivity).
      destruct I1 as [I1|I1]; [auto|]. destruct I2 as [I2|I2]; [auto|]. specialize (A b I2). specialize (B a I1). lra. }
    subst b. f_equal. apply IH; [exact N1|exact N2|]. intros t. specialize (C t). unfold cnt in *. cbn [count_occ] in C.
    destruct (Req_EM_T a t); lia.
Qed.
Lemma bern_sorted : forall d, nondecreasing (knots (bern d)).
Proof.
  intros d i j Hij Hj. rewrite bern_knots in Hj.
  change (nth i (knots (bern d)) 0) with (kn (bern d) i). change (nth j (knots (bern d)) 0) with (kn (bern d) j).
  rewrite !bern_kn by lia. destruct (Nat.leb_spec i d), (Nat.leb_spec j d); try lra; lia.
Qed.
Lemma bern_cnt : forall d t, cnt (knots (bern d)) t = if Req_EM_T 0 t then (d + 1)%nat else if Req_EM_T 1 t then (d + 1)%nat else 0%nat.
Proof.
  intros d t. cbn [bern knots]. rewrite cnt_app, !cnt_repeat. destruct (Req_EM_T 0 t), (Req_EM_T 1 t); try lia. exfalso; lra.
Qed.
Lemma combine_bern : forall a b m, (a <= m)%nat -> (b <= m)%nat -> combine_bases (bern a) (bern b) m = bern m.
Proof.
  intros a b m A B.
  assert (K : knots (combine_bases (bern a) (bern b) m) = knots (bern m)).
  { apply sorted_count_eq.
    - apply combine_nondecreasing.
    - apply bern_sorted.
    - intros t. rewrite combine_mult by (cbn [bern degree]; lia). rewrite !bern_cnt. cbn [bern degree].
      destruct (Req_EM_T 0 t), (Req_EM_T 1 t);
        repeat match goal with |- context [(?x =? 0)%nat] => destruct (Nat.eqb_spec x 0) end; lia. }
  unfold combine_bases in *. cbn [knots] in K. rewrite K. reflexivity.
Qed.
Lemma mul_bern : forall a b, basis_mul (bern a) (bern b) = bern (a + b).
Proof. intros a b. unfold basis_mul. cbn [bern degree]. apply combine_bern; lia. Qed.
Lemma add_bern : forall a b, basis_add (bern a) (bern b) = bern (Nat.max a b).
Proof. intros a b. unfold basis_add. cbn [bern degree]. apply combine_bern; lia. Qed.
Lemma skipn_repeat : forall (x : R) n k, skipn k (repeat x n) = repeat x (n - k).
Proof. intros x. induction n as [|n IH]; intros [|k]; cbn; auto. Qed.
Lemma firstn_repeat : forall (x : R) n k, (k <= n)%nat -> firstn k (repeat x n) = repeat x k.
Proof. intros x. induction n as [|n IH]; intros [|k] H; cbn; auto; [lia|]. f_equal. apply IH. lia. Qed.
Lemma deriv_bern : forall s d o, sbasis s = bern d -> (o <= d)%nat -> sbasis (derivative s o) = bern (d - o).
Proof.
  intros s d [|o] E H; cbn [derivative sbasis]; [rewrite E, Nat.sub_0_r; reflexivity|].
  rewrite E. unfold slice_oo. rewrite bern_knots. cbn [bern degree knots]. unfold bern. f_equal.
  rewrite skipn_app, repeat_length, skipn_repeat. replace (S o - (d + 1))%nat with 0%nat by lia. cbn [skipn].
  rewrite firstn_app, repeat_length. replace (2 * d + 2 - 2 * S o - (d + 1 - S o))%nat with (d - S o + 1)%nat by lia.
  rewrite firstn_all2 by (rewrite repeat_length; lia). rewrite firstn_repeat by lia. f_equal; f_equal; lia.
Qed.
Lemma bern_clamped : forall d, clamped_on (bern d) 0 1.
Proof.
  intros d. pose proof (bern_knots d) as K.
  assert (N : forall i, (i < 2 * d + 2)%nat -> nth i (knots (bern d)) 0 = if (i <=? d)%nat then 0 else 1) by (intros i Hi; exact (bern_kn d i Hi)).
  change (clamped_on (bern d) 0 1) with (well_formed (bern d) /\ clamped (bern d) /\ nth 0 (knots (bern d)) 0 = 0 /\ nth (length (knots (bern d)) - 1) (knots (bern d)) 0 = 1).
  unfold clamped. change (degree (bern d)) with d. rewrite !K.
  rewrite !N by lia.
  split; [split; [apply bern_sorted|rewrite K; cbn [bern degree]; lia]|].
  repeat match goal with |- context [(?x <=? ?y)%nat] => destruct (Nat.leb_spec x y) end; try lia; repeat split; lra.
Qed.
