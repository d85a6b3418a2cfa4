(** Derivatives of polar forms, polar forms as polynomials, and the matrices
    A1 and B1 of extrapolate_T. *)
From Coq Require Import Reals Lra Lia List Permutation Arith Bool.
From Verif Require Import Blossom Spline_Model Spline_Spec Spline_Proofs Spline_Proofs2 Span_Proofs
  Splop_Model Shift_Model Shift_Spec Shift_Proofs.
Import ListNotations.
Local Open Scope R_scope.

Definition slope (F : list R -> R) (us : list R) : R := F (1 :: us) - F (0 :: us).
Fixpoint slopes (i : nat) (F : list R -> R) : list R -> R :=
  match i with O => F | S i' => slope (slopes i' F) end.

Lemma slope_eq : forall d F u v us, symaff (S d) F -> length us = d ->
  F (u :: us) - F (v :: us) = (u - v) * slope F us.
Proof.
  intros d F u v us SA L. unfold slope.
  replace u with ((1 - u) * 0 + u * 1) at 1 by ring.
  replace v with ((1 - v) * 0 + v * 1) at 1 by ring.
  rewrite !(sa_aff _ _ SA) by (simpl; lia). ring.
Qed.

Lemma slope_symaff : forall d F, symaff (S d) F -> symaff d (slope F).
Proof.
  intros d F SA. pose proof (symaff_cons d F 1 SA) as S1. pose proof (symaff_cons d F 0 SA) as S0.
  split.
  - intros us vs L P. unfold slope. rewrite (sa_perm _ _ S1 us vs L P), (sa_perm _ _ S0 us vs L P). reflexivity.
  - intros us w u v L. unfold slope.
    pose proof (sa_aff _ _ S1 us w u v L) as E1. pose proof (sa_aff _ _ S0 us w u v L) as E0.
    cbv beta in E1, E0. rewrite E1, E0. ring.
Qed.

Lemma slopes_symaff : forall i d F, symaff d F -> (i <= d)%nat -> symaff (d - i) (slopes i F).
Proof.
  induction i as [|i IH]; intros d F SA H; [rewrite Nat.sub_0_r; exact SA|]. simpl.
  apply slope_symaff. replace (S (d - S i)) with (d - i)%nat by lia. apply IH; [exact SA|lia].
Qed.

(** ** the products A1, B1 *)
Definition DV (ks : bbasis) (s i : nat) (v : nat -> R) (j : nat) : R :=
  rsum (degree ks + 1) (fun q => diff_stages ks s i j q * v q).

Lemma DV_0 : forall ks s v j, (j <= degree ks)%nat -> DV ks s 0 v j = v j.
Proof.
  intros ks s v j H. unfold DV. rewrite (rsum_pick _ j); [simpl; unfold eye; rewrite Nat.eqb_refl; ring|lia|].
  intros i Hi N. simpl. unfold eye. destruct (Nat.eqb_spec j i); [lia|ring].
Qed.

Lemma DV_S : forall ks s v i j, (i < degree ks)%nat -> (j + i < degree ks)%nat ->
  DV ks s (S i) v j
  = INR (degree ks - i) / (kn ks (j + s) - kn ks (j + s + i - degree ks))
    * (DV ks s i v (j + 1) - DV ks s i v j).
Proof.
  intros ks s v i j Hi Hj. unfold DV at 1. simpl diff_stages. unfold mmul.
  rewrite (rsum_ext _ _ (fun l => rsum (degree ks + 1 - i)
     (fun q => diff_stage ks s (S i) j q * (diff_stages ks s i q l * v l)))).
  - rewrite rsum_swap. rewrite (rsum_ext _ _ (fun q => diff_stage ks s (S i) j q * DV ks s i v q)).
    + rewrite (rsum_pick2 _ j); [|lia|].
      * unfold diff_stage. rewrite Nat.eqb_refl. replace (S j =? j)%nat with false by (symmetry; apply Nat.eqb_neq; lia).
        replace (S j =? j + 1)%nat with true by (symmetry; apply Nat.eqb_eq; lia).
        replace (degree ks + 1 - S i)%nat with (degree ks - i)%nat by lia.
        replace (j + s + S i - degree ks - 1)%nat with (j + s + i - degree ks)%nat by lia.
        replace (S j) with (j + 1)%nat by lia. unfold Rdiv. ring.
      * intros q Hq N1 N2. unfold diff_stage. destruct (Nat.eqb_spec q j); [lia|].
        destruct (Nat.eqb_spec q (j + 1)); [lia|ring].
    + intros q Hq. rewrite rsum_scal. reflexivity.
  - intros l Hl. rewrite rangesum_0. rewrite Rmult_comm, <- rsum_scal.
    apply rsum_ext. intros q Hq. ring.
Qed.

Fixpoint ffac (d i : nat) : R := match i with O => 1 | S i' => ffac d i' * INR (d - i') end.

Lemma DV_slopes : forall ks s F v, symaff (degree ks) F -> (degree ks <= s)%nat ->
  (forall q, (q <= degree ks)%nat -> v q = F (map (kn ks) (seq (s - degree ks + q) (degree ks)))) ->
  (forall i j, (j + i < degree ks)%nat -> kn ks (j + s) <> kn ks (j + s + i - degree ks)) ->
  forall i j, (i <= degree ks)%nat -> (j + i <= degree ks)%nat ->
  DV ks s i v j = ffac (degree ks) i * slopes i F (map (kn ks) (seq (s - degree ks + i + j) (degree ks - i))).
Proof.
  intros ks s F v SA Hs HV HD. induction i as [|i IH]; intros j Hi Hj.
  - rewrite DV_0 by lia. simpl. rewrite Rmult_1_l, Nat.add_0_r, Nat.sub_0_r. apply HV. lia.
  - rewrite DV_S by lia. rewrite !IH by lia.
    set (G := slopes i F). set (e := (degree ks - S i)%nat).
    assert (SG : symaff (S e) G).
    { replace (S e) with (degree ks - i)%nat by (unfold e; lia). apply slopes_symaff; [exact SA|lia]. }
    replace (degree ks - i)%nat with (S e) by (unfold e; lia).
    set (a := (s - degree ks + i + j)%nat).
    replace (s - degree ks + i + (j + 1))%nat with (S a) by (unfold a; lia).
    replace (s - degree ks + S i + j)%nat with (S a) by (unfold a; lia).
    set (us := map (kn ks) (seq (S a) e)).
    assert (LU : length us = e) by (unfold us; rewrite map_length, seq_length; reflexivity).
    assert (E1 : G (map (kn ks) (seq (S a) (S e))) = G (kn ks (j + s) :: us)).
    { apply (sa_perm _ _ SG); [rewrite map_length, seq_length; reflexivity|].
      replace (j + s)%nat with (S a + e)%nat by (unfold a, e; lia). apply seq_rot. }
    assert (E2 : G (map (kn ks) (seq a (S e))) = G (kn ks a :: us)) by reflexivity.
    rewrite E1, E2. rewrite <- Rmult_minus_distr_l. rewrite (slope_eq e G _ _ us SG LU).
    replace (j + s + i - degree ks)%nat with a by (unfold a; lia).
    assert (N : kn ks (j + s) <> kn ks a).
    { replace a with (j + s + i - degree ks)%nat by (unfold a; lia). apply HD. lia. }
    cbn [ffac slopes]. fold G. replace (degree ks - i)%nat with (S e) by (unfold e; lia). field. lra.
Qed.

(** ** polynomials *)
Definition padd (a b : list R) : list R := map (fun p => fst p + snd p) (combine a b).
Lemma padd_poly : forall a b x, length a = length b -> poly (padd a b) x = poly a x + poly b x.
Proof.
  unfold padd. induction a as [|u a IH]; intros [|v b] x L; simpl in *; try discriminate; [ring|].
  rewrite IH by lia. ring.
Qed.
Lemma poly_snoc0 : forall a x, poly (a ++ [0]) x = poly a x.
Proof. induction a as [|u a IH]; intros x; simpl; [ring|]. rewrite IH. reflexivity. Qed.

Lemma symaff_poly : forall d F, symaff d F ->
  exists a, length a = S d /\ forall x, F (repeat x d) = poly a x.
Proof.
  induction d as [|d IH]; intros F SA.
  - exists [F []]. split; [reflexivity|]. intros x. simpl. ring.
  - destruct (IH _ (symaff_cons d F 0 SA)) as [a [La Ha]].
    destruct (IH _ (slope_symaff d F SA)) as [b [Lb Hb]].
    exists (padd (a ++ [0]) (0 :: b)). split.
    + unfold padd. rewrite map_length, combine_length, app_length. simpl. lia.
    + intros x. rewrite padd_poly by (rewrite app_length; simpl; lia). rewrite poly_snoc0. simpl.
      rewrite <- Ha, <- Hb.
      pose proof (slope_eq d F x 0 (repeat x d) SA (repeat_length _ _)) as E. lra.
Qed.

(** ** a piece is linear in its coefficients *)
Lemma piece_rsum : forall d k J us n (a : nat -> R) (f : nat -> nat -> R),
  piece d k (fun i => rsum n (fun q => a q * f q i)) J us = rsum n (fun q => a q * piece d k (f q) J us).
Proof.
  intros d k J us n a f. unfold piece.
  assert (E : forall g, (forall i, g i = rsum n (fun q => a q * shn (J - d) (f q) i)) ->
    bl us (shn (J - d) k) g = rsum n (fun q => a q * bl us (shn (J - d) k) (shn (J - d) (f q)))).
  { induction n as [|n IH]; intros g Hg.
    - rewrite (bl_ext_c us _ g (fun _ => 0)) by (intros; apply Hg). apply bl_const.
    - rewrite (bl_ext_c us _ g (fun i => 1 * rsum n (fun q => a q * shn (J - d) (f q) i)
                                         + a n * shn (J - d) (f n) i)).
      + rewrite bl_lin. rewrite (IH _ (fun i => eq_refl)). simpl. ring.
      + intros i _. rewrite Hg. simpl. ring. }
  apply E. intros i. rewrite shn_spec. apply rsum_ext. intros q Hq. rewrite shn_spec. reflexivity.
Qed.
