(** Two polynomial pieces whose derivatives agree at a point up to order r have
    blossoms that agree on all arguments containing that point often enough.
    Pure mathematics; no model code. *)
From Coq Require Import Reals Lra Lia List Permutation Arith Ranalysis.
From Verif Require Import Blossom Spline_Model Spline_Spec Spline_Proofs Spline_Proofs2 Spline_Proofs3 End_Proofs.
Import ListNotations.
Local Open Scope R_scope.

(** derivative of a symmetric multi-affine form *)
Definition dF (F : list R -> R) (us : list R) : R := F (1 :: us) - F (0 :: us).

Lemma sa_line : forall p F u v us, symaff (S p) F -> length us = p ->
  F (v :: us) = F (u :: us) + (v - u) * dF F us.
Proof.
  intros p F u v us SA L. unfold dF.
  assert (K : forall z, F (z :: us) = (1 - z) * F (0 :: us) + z * F (1 :: us)).
  { intros z. rewrite <- (sa_aff _ _ SA) by lia. f_equal. f_equal. ring. }
  rewrite (K v), (K u). ring.
Qed.

Lemma symaff_sub : forall p F G, symaff p F -> symaff p G -> symaff p (fun us => F us - G us).
Proof.
  intros p F G [P1 A1] [P2 A2]. split.
  - intros us vs L P. rewrite (P1 us vs), (P2 us vs); auto.
  - intros us w u v L. rewrite A1, A2 by exact L. ring.
Qed.

Lemma symaff_dF : forall p F, symaff (S p) F -> symaff p (dF F).
Proof. intros p F H. apply symaff_sub; apply symaff_cons; exact H. Qed.

Lemma dF_sub : forall F G us, dF (fun us => F us - G us) us = dF F us - dF G us.
Proof. intros. unfold dF. ring. Qed.

Fixpoint dFn (j : nat) (F : list R -> R) : list R -> R :=
  match j with O => F | S j' => dFn j' (dF F) end.

Lemma dFn_ext : forall j F G us, (forall vs, F vs = G vs) -> dFn j F us = dFn j G us.
Proof.
  induction j as [|j IH]; intros F G us H; [apply H|]. simpl. apply IH. intros vs. unfold dF. rewrite !H. reflexivity.
Qed.
Lemma dFn_sub : forall j F G us, dFn j (fun us => F us - G us) us = dFn j F us - dFn j G us.
Proof.
  induction j as [|j IH]; intros F G us; [reflexivity|]. simpl. rewrite <- IH.
  apply dFn_ext. intros vs. apply dF_sub.
Qed.
Lemma dFn_S : forall j F us, dFn (S j) F us = dF (dFn j F) us.
Proof.
  induction j as [|j IH]; intros F us; [reflexivity|].
  change (dFn (S (S j)) F us) with (dFn (S j) (dF F) us). rewrite IH. reflexivity.
Qed.
Lemma symaff_dFn : forall j p F, symaff (j + p) F -> symaff p (dFn j F).
Proof.
  induction j as [|j IH]; intros p F H; [exact H|]. simpl. apply IH. apply symaff_dF. exact H.
Qed.

(** vanishing derivatives up to order r *)
Lemma contact_zero : forall r q H t, symaff (r + q) H ->
  (forall j, (j <= r)%nat -> dFn j H (repeat t (r + q - j)) = 0) ->
  forall vs, length vs = r -> H (repeat t q ++ vs) = 0.
Proof.
  induction r as [|r IH]; intros q H t SA Z vs L.
  - destruct vs; [|discriminate]. rewrite app_nil_r. specialize (Z 0%nat (Nat.le_refl _)).
    simpl in Z. rewrite Nat.sub_0_r in Z. exact Z.
  - destruct vs as [|v vs]; [discriminate|]. simpl in L.
    rewrite (sa_perm _ _ SA _ (v :: repeat t q ++ vs)).
    2:{ rewrite app_length, repeat_length. simpl. lia. }
    2:{ symmetry. apply Permutation_middle. }
    change (S r + q)%nat with (S (r + q)) in SA.
    rewrite (sa_line (r + q) H t v (repeat t q ++ vs) SA) by (rewrite app_length, repeat_length; lia).
    change (t :: repeat t q ++ vs) with (repeat t (S q) ++ vs).
    assert (A : H (repeat t (S q) ++ vs) = 0).
    { apply (IH (S q)); [replace (r + S q)%nat with (S (r + q)) by lia; exact SA| |lia].
      intros j Hj. replace (r + S q - j)%nat with (S r + q - j)%nat by lia. apply Z. lia. }
    assert (B : dF H (repeat t q ++ vs) = 0).
    { apply (IH q); [apply symaff_dF; exact SA| |lia].
      intros j Hj. replace (r + q - j)%nat with (S r + q - S j)%nat by lia. apply (Z (S j)). lia. }
    rewrite A, B. ring.
Qed.

Lemma contact : forall r q F G t, symaff (r + q) F -> symaff (r + q) G ->
  (forall j, (j <= r)%nat -> dFn j F (repeat t (r + q - j)) = dFn j G (repeat t (r + q - j))) ->
  forall vs, length vs = r -> F (repeat t q ++ vs) = G (repeat t q ++ vs).
Proof.
  intros r q F G t SF SG E vs L.
  assert (Z := contact_zero r q (fun us => F us - G us) t (symaff_sub _ _ _ SF SG)).
  cbv beta in Z. apply Rminus_diag_uniq. apply Z; auto.
  intros j Hj. rewrite dFn_sub. rewrite E by exact Hj. ring.
Qed.

(** the diagonal of a form and its derivative *)
Lemma form_derivable : forall p F x, symaff (S p) F ->
  derivable_pt_lim (fun y => F (repeat y (S p))) x (INR (S p) * dF F (repeat x p)).
Proof.
  induction p as [|p IH]; intros F x SA.
  - simpl repeat. apply (derivable_pt_lim_ext (fun y => F [0] + y * dF F [])).
    { intros y. rewrite (sa_line 0 F 0 y [] SA eq_refl). ring. }
    replace (INR 1 * dF F []) with (0 + (1 * dF F [] + x * 0)) by (simpl; ring).
    apply derivable_pt_lim_plus; [apply derivable_pt_lim_const|].
    apply (derivable_pt_lim_mult id (fct_cte (dF F []))); [apply derivable_pt_lim_id|apply derivable_pt_lim_const].
  - assert (SD := symaff_dF _ _ SA). assert (S0 := symaff_cons _ _ 0 SA).
    apply (derivable_pt_lim_ext (fun y => F (0 :: repeat y (S p)) + y * dF F (repeat y (S p)))).
    { intros y. change (repeat y (S (S p))) with (y :: repeat y (S p)).
      rewrite (sa_line (S p) F 0 y (repeat y (S p)) SA) by (apply repeat_length). ring. }
    replace (INR (S (S p)) * dF F (repeat x (S p)))
      with (INR (S p) * dF (fun us => F (0 :: us)) (repeat x p) +
            (1 * dF F (repeat x (S p)) + x * (INR (S p) * dF (dF F) (repeat x p)))).
    + apply derivable_pt_lim_plus; [apply (IH (fun us => F (0 :: us)) x S0)|].
      apply (derivable_pt_lim_mult id (fun y => dF F (repeat y (S p)))); [apply derivable_pt_lim_id|].
      apply IH. exact SD.
    + change (repeat x (S p)) with (x :: repeat x p).
      assert (E : dF F (x :: repeat x p) = dF (fun us => F (0 :: us)) (repeat x p) + x * dF (dF F) (repeat x p)).
      { rewrite (sa_line p (dF F) 0 x (repeat x p) SD) by (apply repeat_length).
        replace (x - 0) with x by ring. f_equal. unfold dF.
        rewrite (sa_perm _ _ SA (1 :: 0 :: repeat x p) (0 :: 1 :: repeat x p)); [reflexivity| |apply perm_swap].
        simpl. rewrite repeat_length. reflexivity. }
      rewrite E. rewrite (S_INR (S p)). ring.
Qed.

(** a form whose diagonal vanishes on an interval vanishes *)
Lemma form_zero : forall p H a b, symaff p H -> a < b ->
  (forall x, a < x < b -> H (repeat x p) = 0) -> forall us, length us = p -> H us = 0.
Proof.
  induction p as [|p IH]; intros H a b SA Hab Z us L.
  - destruct us; [|discriminate]. apply (Z ((a + b) / 2)). lra.
  - assert (D : forall vs, length vs = p -> dF H vs = 0).
    { apply (IH (dF H) a b); [apply symaff_dF; exact SA|exact Hab|].
      intros x Hx. assert (K := form_derivable p H x SA).
      assert (K0 : derivable_pt_lim (fun y => H (repeat y (S p))) x 0).
      { apply (derivable_pt_lim_locally_ext (fun _ => 0) _ x a b); [lra| |apply derivable_pt_lim_const].
        intros y Hy. symmetry. apply Z. exact Hy. }
      assert (E := uniqueness_limite _ _ _ _ K K0).
      apply Rmult_integral in E. destruct E as [E|E]; [|exact E].
      exfalso. apply (not_0_INR (S p)); [lia|exact E]. }
    set (x := (a + b) / 2).
    assert (G : forall n vs, (n + length vs = S p)%nat -> H (repeat x n ++ vs) = 0).
    { intros n vs. revert n. induction vs as [|v vs IHv]; intros n Hn.
      - rewrite app_nil_r. replace n with (S p) by (simpl in Hn; lia). apply Z. unfold x. lra.
      - rewrite (sa_perm _ _ SA _ (v :: repeat x n ++ vs)).
        2:{ rewrite app_length, repeat_length. simpl in *. lia. }
        2:{ symmetry. apply Permutation_middle. }
        simpl in Hn. rewrite (sa_line p H x v (repeat x n ++ vs) SA) by (rewrite app_length, repeat_length; lia).
        rewrite (D (repeat x n ++ vs)) by (rewrite app_length, repeat_length; lia).
        change (x :: repeat x n ++ vs) with (repeat x (S n) ++ vs). rewrite IHv by lia. ring. }
    apply (G 0%nat us). simpl. exact L.
Qed.

Lemma form_unique : forall p F G a b, symaff p F -> symaff p G -> a < b ->
  (forall x, a < x < b -> F (repeat x p) = G (repeat x p)) -> forall us, length us = p -> F us = G us.
Proof.
  intros p F G a b SF SG Hab E us L. apply Rminus_diag_uniq.
  apply (form_zero p (fun us => F us - G us) a b); auto; [apply symaff_sub; auto|].
  intros x Hx. rewrite E by exact Hx. ring.
Qed.

(** ** pieces of derivative splines *)
Fixpoint falling (p d : nat) : R :=
  match d with O => 1 | S d' => falling p d' * INR (p - d') end.
Lemma falling_pos : forall d p, (d <= p)%nat -> 0 < falling p d.
Proof.
  induction d as [|d IH]; intros p Hd; simpl; [lra|].
  apply Rmult_lt_0_compat; [apply IH; lia|]. apply lt_0_INR. lia.
Qed.

Definition spiece (s : bspline) (J : nat) : list R -> R :=
  piece (degree (sbasis s)) (kn (sbasis s)) (cf s) J.

Lemma deriv_active : forall d s x J, (d <= degree (sbasis s))%nat -> well_formed (sbasis s) -> sized s ->
  active (sbasis s) x J -> kn (sbasis s) J < x -> active (sbasis (derivative s d)) x (J - d) /\
  kn (sbasis (derivative s d)) (J - d) < x.
Proof.
  induction d as [|d IH]; intros s x J Hd WF SZ HA Hx.
  - rewrite Nat.sub_0_r. split; assumption.
  - destruct (IH s x J ltac:(lia) WF SZ HA Hx) as [H1 H2].
    destruct (deriv_inv d s ltac:(lia) WF SZ) as (A & B & C & _).
    rewrite derivative_iter. replace (J - S d)%nat with (J - d - 1)%nat by lia.
    split; [apply deriv1_active; auto; lia|].
    destruct H1 as (K1 & K2 & _). rewrite deriv1_kn by lia.
    replace (S (J - d - 1)) with (J - d)%nat by lia. exact H2.
Qed.

Theorem derivative_pieces : forall s J x, well_formed (sbasis s) -> sized s ->
  active (sbasis s) x J -> kn (sbasis s) J < x ->
  forall d z, (d <= degree (sbasis s))%nat ->
  spiece (derivative s d) (J - d) (repeat z (degree (sbasis s) - d))
  = falling (degree (sbasis s)) d * dFn d (spiece s J) (repeat z (degree (sbasis s) - d)).
Proof.
  intros s J x WF SZ HA Hx. set (p := degree (sbasis s)).
  assert (SA : symaff p (spiece s J)).
  { apply piece_symaff; [apply HA|]. eapply active_pos; [apply WF|exact HA]. }
  induction d as [|d IH]; intros z Hd.
  - rewrite !Nat.sub_0_r. simpl. unfold spiece. rewrite Rmult_1_l. reflexivity.
  - destruct (deriv_active d s x J ltac:(lia) WF SZ HA Hx) as [A1 A2].
    destruct (deriv_inv d s ltac:(lia) WF SZ) as (B1 & B2 & B3 & _).
    assert (K := piece_derivable (derivative s d) (J - d) z (proj1 B1) B2 ltac:(lia) x A1).
    rewrite <- derivative_iter in K. rewrite B3 in K. fold p in K.
    assert (K2 : derivable_pt_lim (fun y => falling p d * dFn d (spiece s J) (repeat y (p - d))) z
                   (falling p d * (INR (p - d) * dF (dFn d (spiece s J)) (repeat z (p - d - 1))))).
    { replace (falling p d * (INR (p - d) * dF (dFn d (spiece s J)) (repeat z (p - d - 1))))
        with (0 * dFn d (spiece s J) (repeat z (p - d)) +
              falling p d * (INR (p - d) * dF (dFn d (spiece s J)) (repeat z (p - d - 1)))) by ring.
      apply (derivable_pt_lim_mult (fct_cte (falling p d)) (fun y => dFn d (spiece s J) (repeat y (p - d))));
        [apply derivable_pt_lim_const|].
      replace (p - d)%nat with (S (p - d - 1)) by lia.
      replace (S (p - d - 1) - 1)%nat with (p - d - 1)%nat by lia.
      apply form_derivable. apply symaff_dFn. replace (d + S (p - d - 1))%nat with p by lia. exact SA. }
    assert (K3 : derivable_pt_lim (diag (p - d) (shn (J - d - (p - d)) (kn (sbasis (derivative s d))))
       (shn (J - d - (p - d)) (cf (derivative s d)))) z
       (falling p d * (INR (p - d) * dF (dFn d (spiece s J)) (repeat z (p - d - 1))))).
    { apply (derivable_pt_lim_ext (fun y => falling p d * dFn d (spiece s J) (repeat y (p - d)))); [|exact K2].
      intros y. rewrite <- IH by lia. unfold spiece, piece, diag. rewrite B3. fold p. reflexivity. }
    assert (E := uniqueness_limite _ _ _ _ K K3).
    destruct (deriv_inv (S d) s Hd WF SZ) as (_ & _ & C3 & _).
    unfold spiece at 1. unfold piece. rewrite C3. fold p. unfold diag in E.
    replace (p - S d)%nat with (p - d - 1)%nat by lia.
    replace (J - S d)%nat with (J - d - 1)%nat by lia.
    rewrite dFn_S. simpl falling.
    rewrite Rmult_assoc. rewrite <- E. f_equal.
Qed.
