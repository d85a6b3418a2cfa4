(** Polar forms ("blossoms") of B-spline pieces, over function-indexed knots
    and coefficients.  Pure mathematics used by the spline proofs; nothing in
    this file models /repo code. *)
From Coq Require Import Reals Lra Lia List Permutation Arith.
Import ListNotations.
Local Open Scope R_scope.

Definition sh {A} (f : nat -> A) : nat -> A := fun i => f (S i).

Fixpoint shn {A} (a : nat) (f : nat -> A) : nat -> A :=
  match a with O => f | S a' => shn a' (sh f) end.

Lemma shn_spec : forall A a (f : nat -> A) i, shn a f i = f (a + i)%nat.
Proof.
  induction a as [|a IH]; intros f i; simpl; [reflexivity|].
  rewrite IH. unfold sh. f_equal.
Qed.

(** one de Boor step from degree [S d] to degree [d] *)
Definition dbstep (d : nat) (u : R) (k c : nat -> R) : nat -> R := fun i =>
  let w := (u - k (i + 1)%nat) / (k (i + d + 2)%nat - k (i + 1)%nat) in
  (1 - w) * c i + w * c (i + 1)%nat.

(** [bl us k c]: the blossom of the polynomial piece on [k d, k (d+1)],
    d = length us, with coefficients c 0 .. c d. *)
Fixpoint bl (us : list R) (k c : nat -> R) : R :=
  match us with
  | [] => c 0%nat
  | u :: us' => bl us' (sh k) (dbstep (length us') u k c)
  end.

Definition good (d : nat) (k : nat -> R) : Prop :=
  forall i j, (1 <= i <= d)%nat -> (d + 1 <= j <= 2 * d)%nat -> k i < k j.

Lemma good_sh : forall d k, good (S d) k -> good d (sh k).
Proof. intros d k H i j Hi Hj. unfold sh. apply H; lia. Qed.

Lemma bl_ext : forall us k k' c c',
  (forall i, (i <= length us)%nat -> c i = c' i) ->
  (forall i, (1 <= i <= 2 * length us)%nat -> k i = k' i) ->
  bl us k c = bl us k' c'.
Proof.
  induction us as [|u us IH]; intros k k' c c' Hc Hk; simpl in *.
  - apply Hc; lia.
  - apply IH.
    + intros i Hi. unfold dbstep.
      rewrite !Hk by lia. rewrite !Hc by lia. reflexivity.
    + intros i Hi. unfold sh. apply Hk; lia.
Qed.

Lemma bl_ext_c : forall us k c c',
  (forall i, (i <= length us)%nat -> c i = c' i) -> bl us k c = bl us k c'.
Proof. intros; apply bl_ext; auto. Qed.

Lemma dbstep_lin : forall d u k a b c e i,
  dbstep d u k (fun j => a * c j + b * e j) i
  = a * dbstep d u k c i + b * dbstep d u k e i.
Proof. intros. unfold dbstep. ring. Qed.

Lemma bl_lin : forall us k a b c e,
  bl us k (fun j => a * c j + b * e j) = a * bl us k c + b * bl us k e.
Proof.
  induction us as [|u us IH]; intros; simpl; [reflexivity|].
  rewrite <- IH. apply bl_ext_c. intros. apply dbstep_lin.
Qed.

Lemma bl_add : forall us k c e,
  bl us k (fun j => c j + e j) = bl us k c + bl us k e.
Proof.
  intros. rewrite <- (Rmult_1_l (bl us k c)), <- (Rmult_1_l (bl us k e)).
  rewrite <- bl_lin. apply bl_ext_c. intros; ring.
Qed.

Lemma bl_scal : forall us k a c, bl us k (fun j => a * c j) = a * bl us k c.
Proof.
  intros. replace (a * bl us k c) with (a * bl us k c + 0 * bl us k c) by ring.
  rewrite <- bl_lin. apply bl_ext_c. intros; ring.
Qed.

Lemma bl_const : forall us k a, bl us k (fun _ => a) = a.
Proof.
  induction us as [|u us IH]; intros; simpl; [reflexivity|].
  transitivity (bl us (sh k) (fun _ => a)); [|apply IH].
  apply bl_ext_c. intros. unfold dbstep. ring.
Qed.

Lemma bl_affine : forall us k c w u v,
  bl (((1 - w) * u + w * v) :: us) k c
  = (1 - w) * bl (u :: us) k c + w * bl (v :: us) k c.
Proof.
  intros. simpl. rewrite <- bl_lin. apply bl_ext_c. intros.
  unfold dbstep, Rdiv. ring.
Qed.

Lemma dbstep_swap : forall d u v k c i,
  k (i + 2)%nat < k (i + d + 3)%nat ->
  k (i + 1)%nat < k (i + d + 3)%nat ->
  k (i + 2)%nat < k (i + d + 4)%nat ->
  dbstep d v (sh k) (dbstep (S d) u k c) i
  = dbstep d u (sh k) (dbstep (S d) v k c) i.
Proof.
  intros d u v k c i H1 H2 H3. unfold dbstep, sh.
  replace (S (i + 1)) with (i + 2)%nat by lia.
  replace (S (i + d + 2)) with (i + d + 3)%nat by lia.
  replace (i + S d + 2)%nat with (i + d + 3)%nat by lia.
  replace (i + 1 + 1)%nat with (i + 2)%nat by lia.
  replace (i + 1 + S d + 2)%nat with (i + d + 4)%nat by lia.
  field. repeat split; lra.
Qed.

Lemma bl_swap : forall us k c u v,
  good (S (S (length us))) k ->
  bl (u :: v :: us) k c = bl (v :: u :: us) k c.
Proof.
  intros us k c u v G. simpl. apply bl_ext_c. intros i Hi.
  apply dbstep_swap; apply G; lia.
Qed.

Lemma bl_perm : forall us vs, Permutation us vs ->
  forall k c, good (length us) k -> bl us k c = bl vs k c.
Proof.
  induction 1; intros k c G.
  - reflexivity.
  - simpl. rewrite (Permutation_length H). apply IHPermutation.
    apply good_sh. exact G.
  - apply bl_swap. exact G.
  - rewrite IHPermutation1 by exact G. apply IHPermutation2.
    rewrite <- (Permutation_length H). exact G.
Qed.

(** symmetric multi-affine functions of [d] arguments *)
Record symaff (d : nat) (F : list R -> R) : Prop := {
  sa_perm : forall us vs, length us = d -> Permutation us vs -> F us = F vs;
  sa_aff : forall us w u v, S (length us) = d ->
     F (((1 - w) * u + w * v) :: us) = (1 - w) * F (u :: us) + w * F (v :: us)
}.

Lemma bl_symaff : forall d k c, good d k -> symaff d (fun us => bl us k c).
Proof.
  intros d k c G. split.
  - intros us vs Hl P. apply bl_perm; [exact P|]. rewrite Hl. exact G.
  - intros. apply bl_affine.
Qed.

Lemma symaff_cons : forall d F u, symaff (S d) F -> symaff d (fun us => F (u :: us)).
Proof.
  intros d F u [HP HA]. split.
  - intros us vs Hl P. apply HP; [simpl; lia|]. constructor; exact P.
  - intros us w a b Hl.
    assert (SW : forall z, F (u :: z :: us) = F (z :: u :: us)).
    { intros z. apply HP; [simpl; lia|]. apply perm_swap. }
    rewrite !SW. apply HA. simpl; lia.
Qed.

Lemma map_seq_shift : forall (k : nat -> R) d i,
  map (sh k) (seq i d) = map k (seq (S i) d).
Proof.
  intros. rewrite <- seq_shift, map_map. reflexivity.
Qed.

Lemma seq_rot : forall (k : nat -> R) a d,
  Permutation (map k (seq a (S d))) (k (a + d)%nat :: map k (seq a d)).
Proof.
  intros. rewrite seq_S, map_app. cbn [map].
  symmetry. apply Permutation_cons_append.
Qed.

(** A symmetric multi-affine map is the blossom of its own values at
    consecutive knots. *)
Theorem bl_reconstruct : forall us k F,
  good (length us) k -> symaff (length us) F ->
  bl us k (fun i => F (map k (seq (S i) (length us)))) = F us.
Proof.
  induction us as [|u us IH]; intros k F G SA; [reflexivity|].
  simpl bl.
  rewrite <- (IH (sh k) (fun vs => F (u :: vs))).
  - apply bl_ext_c. intros i Hi. set (d := length us) in *.
    rewrite map_seq_shift. unfold dbstep.
    replace (i + 1)%nat with (S i) by lia.
    replace (i + d + 2)%nat with (S i + S d)%nat by lia.
    set (w := (u - k (S i)) / (k (S i + S d)%nat - k (S i))).
    change (length (u :: us)) with (S d).
    assert (E2 : F (map k (seq (S (S i)) (S d)))
                 = F (k (S i + S d)%nat :: map k (seq (S (S i)) d))).
    { destruct SA as [HP _]. apply HP.
      - rewrite map_length, seq_length. reflexivity.
      - replace (S i + S d)%nat with (S (S i) + d)%nat by lia.
        apply seq_rot. }
    replace (S i + 1)%nat with (S (S i)) in * by lia.
    change (k (S (S i)) :: map k (seq (S (S (S i))) d))
      with (map k (seq (S (S i)) (S d))).
    rewrite E2. destruct SA as [_ HA]. rewrite <- HA.
    + f_equal. f_equal. unfold w. field.
      assert (k (S i) < k (S i + S d)%nat) by (apply G; simpl; lia). lra.
    + rewrite map_length, seq_length. reflexivity.
  - apply good_sh. exact G.
  - apply symaff_cons. exact SA.
Qed.

(** Dual functionals: the blossom at consecutive knots is the coefficient. *)
Theorem bl_dual : forall d k c i, good d k -> (i <= d)%nat ->
  bl (map k (seq (S i) d)) k c = c i.
Proof.
  induction d as [|d IH]; intros k c i G Hi.
  - simpl. f_equal. lia.
  - destruct (Nat.eq_dec i (S d)) as [->|Hn].
    + (* i = d+1: first knot used makes weight 1 *)
      change (seq (S (S d)) (S d)) with (S (S d) :: seq (S (S (S d))) d).
      assert (P : Permutation (map k (S (S d) :: seq (S (S (S d))) d))
                 (k (S d + S d)%nat :: map k (seq (S (S d)) d))).
      { replace (S d + S d)%nat with (S (S d) + d)%nat by lia.
        apply (seq_rot k (S (S d)) d). }
      rewrite (bl_perm _ _ P).
      2:{ rewrite map_length. simpl. rewrite seq_length. exact G. }
      simpl bl. rewrite map_length, seq_length.
      rewrite <- map_seq_shift. rewrite IH; [|apply good_sh; exact G|lia].
      unfold dbstep.
      replace (d + d + 2)%nat with (S d + S d)%nat by lia.
      replace (d + 1)%nat with (S d) by lia.
      change (d + S d)%nat with (d + S d)%nat.
      replace (S (d + S d)) with (S d + S d)%nat by lia.
      field. assert (k (S d) < k (S d + S d)%nat) by (apply G; lia). lra.
    + change (seq (S i) (S d)) with (S i :: seq (S (S i)) d).
      simpl bl. rewrite map_length, seq_length, <- map_seq_shift.
      rewrite IH; [|apply good_sh; exact G|lia].
      unfold dbstep. replace (i + 1)%nat with (S i) by lia.
      replace (k (S i) - k (S i)) with 0 by ring. unfold Rdiv. ring.
Qed.

(** ** Derivative of the diagonal *)
Definition bdiff (d : nat) (k c : nat -> R) : nat -> R := fun i =>
  (c (i + 1)%nat - c i) / (k (i + d + 2)%nat - k (i + 1)%nat).

Definition diag (d : nat) (k c : nat -> R) (x : R) : R := bl (repeat x d) k c.

Lemma diag_S : forall d k c x,
  diag (S d) k c x = diag d (sh k) (dbstep d x k c) x.
Proof. intros. unfold diag. simpl. rewrite repeat_length. reflexivity. Qed.

Lemma dbstep_bdiff : forall d x k c i,
  k (i + 2)%nat < k (i + d + 3)%nat ->
  k (i + 1)%nat < k (i + d + 3)%nat ->
  k (i + 2)%nat < k (i + d + 4)%nat ->
  bdiff d (sh k) (dbstep (S d) x k c) i = dbstep d x (sh k) (bdiff (S d) k c) i.
Proof.
  intros d x k c i H1 H2 H3. unfold bdiff, dbstep, sh.
  replace (S (i + d + 2)) with (i + d + 3)%nat by lia.
  replace (S (i + 1)) with (i + 2)%nat by lia.
  replace (i + S d + 2)%nat with (i + d + 3)%nat by lia.
  replace (i + 1 + 1)%nat with (i + 2)%nat by lia.
  replace (i + 1 + S d + 2)%nat with (i + d + 4)%nat by lia.
  field. repeat split; lra.
Qed.

Theorem diag_derivable : forall d k c x, good (S d) k ->
  derivable_pt_lim (diag (S d) k c) x
    (INR (S d) * diag d (sh k) (bdiff d k c) x).
Proof.
  induction d as [|d IH]; intros k c x G.
  - unfold diag, bdiff. simpl bl. simpl repeat.
    assert (H : k 1%nat < k 2%nat) by (apply G; lia).
    apply derivable_pt_lim_ext with
      (f := plus_fct
         (fct_cte (c 0%nat - k 1%nat * ((c 1%nat - c 0%nat) / (k 2%nat - k 1%nat))))
         (mult_real_fct ((c 1%nat - c 0%nat) / (k 2%nat - k 1%nat)) id)).
    + intros y. unfold plus_fct, mult_real_fct, fct_cte, id, dbstep. simpl. field. lra.
    + match goal with |- derivable_pt_lim _ _ ?l =>
        replace l with (0 + ((c 1%nat - c 0%nat) / (k 2%nat - k 1%nat)) * 1)
          by (simpl; ring) end.
      apply derivable_pt_lim_plus.
      * apply derivable_pt_lim_const.
      * apply derivable_pt_lim_scal. apply derivable_pt_lim_id.
  - (* c'(y) = a + y b *)
    set (b := bdiff (S d) k c).
    set (a := fun i => c i - k (i + 1)%nat * b i).
    assert (E : forall y, diag (S (S d)) k c y
        = (diag (S d) (sh k) a + id * diag (S d) (sh k) b)%F y).
    { intros y. rewrite diag_S. unfold plus_fct, mult_fct, id, diag.
      rewrite <- bl_scal, <- bl_add. apply bl_ext_c. intros i Hi.
      unfold dbstep, a, b, bdiff. rewrite repeat_length in Hi.
      assert (k (i+1)%nat < k (i + S d + 2)%nat) by (apply G; lia).
      field. lra. }
    eapply derivable_pt_lim_ext; [intros y; symmetry; apply E|].
    pose proof (IH (sh k) a x (good_sh _ _ G)) as Ha.
    pose proof (IH (sh k) b x (good_sh _ _ G)) as Hb.
    pose proof (derivable_pt_lim_plus _ _ _ _ _ Ha
      (derivable_pt_lim_mult _ _ _ _ _ (derivable_pt_lim_id x) Hb)) as HH.
    match type of HH with derivable_pt_lim _ _ ?l => 
      replace (INR (S (S d)) * diag (S d) (sh k) b x) with l; [exact HH|] end.
    unfold id.
    rewrite (S_INR (S d)).
    replace (INR (S d) * diag d (sh (sh k)) (bdiff d (sh k) a) x +
       (1 * diag (S d) (sh k) b x + x * (INR (S d) * diag d (sh (sh k)) (bdiff d (sh k) b) x)))
     with (INR (S d) * (diag d (sh (sh k)) (bdiff d (sh k) a) x + 
            x * diag d (sh (sh k)) (bdiff d (sh k) b) x) + diag (S d) (sh k) b x) by ring.
    replace (diag d (sh (sh k)) (bdiff d (sh k) a) x +
             x * diag d (sh (sh k)) (bdiff d (sh k) b) x)
      with (diag (S d) (sh k) b x); [ring|].
    rewrite diag_S. unfold diag. rewrite <- bl_scal, <- bl_add.
    apply bl_ext_c. intros i Hi. rewrite repeat_length in Hi.
    unfold b at 1.
    rewrite <- dbstep_bdiff by (apply G; lia).
    assert (EQ : forall j, (j <= S d)%nat -> dbstep (S d) x k c j = a j + x * b j).
    { intros j Hj. unfold dbstep, a, b, bdiff.
      assert (k (j+1)%nat < k (j + S d + 2)%nat) by (apply G; lia). field. lra. }
    unfold bdiff at 1. rewrite !EQ by lia. unfold bdiff, Rdiv. ring.
Qed.

(** Convex hull: for x in the active interval the diagonal is between bounds
    of the relevant coefficients. *)
Theorem diag_hull : forall d k c x lo hi, good d k ->
  (forall i, (1 <= i <= d)%nat -> k i <= x) ->
  (forall i, (d + 1 <= i <= 2 * d)%nat -> x <= k i) ->
  (forall i, (i <= d)%nat -> lo <= c i <= hi) ->
  lo <= diag d k c x <= hi.
Proof.
  induction d as [|d IH]; intros k c x lo hi G Hl Hr Hc.
  - unfold diag. simpl. apply Hc. lia.
  - rewrite diag_S. apply IH.
    + apply good_sh, G.
    + intros i Hi. unfold sh. apply Hl; lia.
    + intros i Hi. unfold sh. apply Hr; lia.
    + intros i Hi. unfold dbstep.
      assert (A : k (i+1)%nat < k (i + d + 2)%nat) by (apply G; lia).
      assert (B : k (i+1)%nat <= x) by (apply Hl; lia).
      assert (C : x <= k (i + d + 2)%nat) by (apply Hr; lia).
      set (w := (x - k (i + 1)%nat) / (k (i + d + 2)%nat - k (i + 1)%nat)).
      assert (W : 0 <= w <= 1).
      { unfold w. split.
        - apply Rmult_le_pos; [lra|]. left. apply Rinv_0_lt_compat. lra.
        - apply Rmult_le_reg_r with (k (i + d + 2)%nat - k (i + 1)%nat); [lra|].
          unfold Rdiv. rewrite Rmult_assoc, Rinv_l by lra. lra. }
      pose proof (Hc i ltac:(lia)). pose proof (Hc (i+1)%nat ltac:(lia)).
      split; nra.
Qed.
