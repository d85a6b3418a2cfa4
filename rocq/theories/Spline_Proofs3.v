(** Endpoint values, higher derivatives, running integral, scale. *)
From Coq Require Import Reals Lra Lia List Arith Bool Permutation.
From Verif Require Import Blossom Spline_Model Spline_Spec Spline_Proofs Spline_Proofs2.
Import ListNotations.
Local Open Scope R_scope.

(** ** higher derivatives *)
Lemma deriv1_dom_left : forall s, (1 <= degree (sbasis s))%nat -> well_formed (sbasis s) ->
  dom_left (sbasis (derivative s 1)) = dom_left (sbasis s).
Proof.
  intros s H [Hs Hl]. unfold dom_left. rewrite deriv1_degree, deriv1_knots.
  rewrite nth_trim by lia. f_equal. lia.
Qed.
Lemma deriv1_dom_right : forall s, (1 <= degree (sbasis s))%nat -> well_formed (sbasis s) ->
  dom_right (sbasis (derivative s 1)) = dom_right (sbasis s).
Proof.
  intros s H [Hs Hl]. unfold dom_right. rewrite deriv1_degree, deriv1_knots, length_trim.
  rewrite nth_trim by lia. f_equal. lia.
Qed.
Lemma deriv1_mult : forall s x r, mult_le (sbasis s) x r -> mult_le (sbasis (derivative s 1)) x r.
Proof.
  intros s x r H i Hi [E1 E2]. rewrite deriv1_knots in *. rewrite length_trim in Hi.
  rewrite nth_trim in E1, E2 by lia. apply (H (S i)); [lia|]. split; auto.
Qed.
Lemma mult_le_weaken : forall b x r r', (r <= r')%nat -> nondecreasing (knots b) ->
  mult_le b x r -> mult_le b x r'.
Proof.
  intros b x r r' Hr Hs H i Hi [E1 E2]. apply (H i); [lia|]. split; auto.
  pose proof (Hs i (i + r)%nat ltac:(lia) ltac:(lia)).
  pose proof (Hs (i + r)%nat (i + r')%nat ltac:(lia) ltac:(lia)). lra.
Qed.

Lemma deriv_inv : forall o s, (o <= degree (sbasis s))%nat -> well_formed (sbasis s) -> sized s ->
  well_formed (sbasis (derivative s o)) /\ sized (derivative s o) /\
  degree (sbasis (derivative s o)) = (degree (sbasis s) - o)%nat /\
  dom_left (sbasis (derivative s o)) = dom_left (sbasis s) /\
  dom_right (sbasis (derivative s o)) = dom_right (sbasis s) /\
  (forall x r, mult_le (sbasis s) x r -> mult_le (sbasis (derivative s o)) x r).
Proof.
  induction o as [|o IH]; intros s Ho WF SZ.
  - simpl. repeat split; auto; try (apply WF). lia.
  - destruct (IH s ltac:(lia) WF SZ) as (A & B & C & E & F & G).
    rewrite derivative_iter.
    assert (1 <= degree (sbasis (derivative s o)))%nat by lia.
    split; [apply deriv1_wf; auto|]. split; [apply deriv1_sized; auto|].
    split; [rewrite deriv1_degree; lia|].
    split; [rewrite deriv1_dom_left; auto|]. split; [rewrite deriv1_dom_right; auto|].
    intros. apply deriv1_mult. auto.
Qed.

Theorem derivative_correct : forall s o x, well_formed (sbasis s) -> sized s ->
  (o < degree (sbasis s))%nat ->
  dom_left (sbasis s) < x < dom_right (sbasis s) ->
  mult_le (sbasis s) x (degree (sbasis s) - o - 1) ->
  derivable_pt_lim (call (derivative s o)) x (call (derivative s (S o)) x).
Proof.
  intros s o x WF SZ Ho Hx Hm.
  destruct (deriv_inv o s ltac:(lia) WF SZ) as (A & B & C & E & F & G).
  rewrite derivative_iter. apply derivative1_correct; auto.
  - lia.
  - rewrite E, F. exact Hx.
  - rewrite C. apply G. exact Hm.
Qed.

(** ** endpoint interpolation *)
Theorem call_left_end : forall s, well_formed (sbasis s) -> sized s ->
  nth 0 (knots (sbasis s)) 0 = dom_left (sbasis s) ->
  dom_left (sbasis s) < nth (degree (sbasis s) + 1) (knots (sbasis s)) 0 ->
  call s (nth 0 (knots (sbasis s)) 0) = nth 0 (coeffs s) 0.
Proof.
  intros s [Hs Hl] SZ H0 H1. set (b := sbasis s) in *. set (D := degree b) in *.
  set (x := nth 0 (knots b) 0) in *.
  assert (HA : active b x D).
  { unfold dom_left in *. fold D in H0, H1.
    split; [fold D; lia|]. split; [fold D; lia|]. split; [exact H1|].
    right. repeat split; auto. }
  rewrite (call_piece s x D) by auto. fold b D.
  assert (E : repeat x D = map (kn b) (seq 1 D)).
  { symmetry. apply map_const_repeat. intros j Hj.
    pose proof (Hs 0%nat j ltac:(lia) ltac:(lia)). pose proof (Hs j D ltac:(lia) ltac:(lia)).
    unfold dom_left in H0. fold D in H0. fold x in H. unfold kn. lra. }
  rewrite E. apply piece_dual; [lia| |lia]. apply (active_pos b x); auto.
Qed.

Theorem call_right_end : forall s, well_formed (sbasis s) -> sized s ->
  dom_right (sbasis s) = nth (length (knots (sbasis s)) - 1) (knots (sbasis s)) 0 ->
  nth (length (knots (sbasis s)) - degree (sbasis s) - 2) (knots (sbasis s)) 0 < dom_right (sbasis s) ->
  call s (dom_right (sbasis s)) = nth (length (coeffs s) - 1) (coeffs s) 0.
Proof.
  intros s [Hs Hl] SZ H0 H1. set (b := sbasis s) in *. set (D := degree b) in *.
  set (x := dom_right b) in *. set (M := length (knots b)) in *.
  assert (HA : active b x (M - D - 2)).
  { apply active_inside; fold D M; try lia. split; [exact H1|].
    replace (M - D - 2 + 1)%nat with (M - D - 1)%nat by lia. apply Rle_refl. }
  rewrite (call_piece s x (M - D - 2)) by auto. fold b D.
  assert (E : repeat x D = map (kn b) (seq (S (M - D - 2)) D)).
  { symmetry. apply map_const_repeat. intros j Hj.
    pose proof (Hs (M - D - 1)%nat j ltac:(lia) ltac:(fold M; lia)).
    pose proof (Hs j (M - 1)%nat ltac:(lia) ltac:(fold M; lia)).
    unfold x, dom_right in *. fold M D in H0 |- *. unfold kn. lra. }
  rewrite E. rewrite piece_dual.
  - unfold cf. f_equal. unfold sized in SZ. fold b M D in SZ. lia.
  - lia.
  - apply (active_pos b x); auto.
  - lia.
Qed.

(** ** running integral *)
Definition rib (b : bbasis) : bbasis :=
  mkB ([hd 0 (knots b)] ++ knots b ++ [last (knots b) 0]) (degree b + 1).

Lemma nth_last : forall (l : list R), last l 0 = nth (length l - 1) l 0.
Proof.
  induction l as [|a l IH]; [reflexivity|]. destruct l as [|c l]; [reflexivity|].
  change (last (a :: c :: l) 0) with (last (c :: l) 0). rewrite IH.
  simpl length. replace (S (S (length l)) - 1)%nat with (S (S (length l) - 1)) by lia. reflexivity.
Qed.

Lemma rib_length : forall b, length (knots (rib b)) = (length (knots b) + 2)%nat.
Proof. intros. unfold rib. cbn [knots]. rewrite !app_length. simpl. lia. Qed.
Lemma rib_mid : forall b i, (i < length (knots b))%nat -> nth (S i) (knots (rib b)) 0 = nth i (knots b) 0.
Proof. intros b i H. unfold rib. simpl. rewrite app_nth1 by auto. reflexivity. Qed.
Lemma rib_0 : forall b, nth 0 (knots (rib b)) 0 = nth 0 (knots b) 0.
Proof. intros b. unfold rib. simpl. destruct (knots b); reflexivity. Qed.
Lemma rib_end : forall b, nth (S (length (knots b))) (knots (rib b)) 0 = nth (length (knots b) - 1) (knots b) 0.
Proof.
  intros b. unfold rib. simpl. rewrite app_nth2 by lia. rewrite Nat.sub_diag. simpl. apply nth_last.
Qed.

Lemma rib_sorted : forall b, (1 <= length (knots b))%nat -> nondecreasing (knots b) -> nondecreasing (knots (rib b)).
Proof.
  intros b Hl Hs i j Hij Hj. rewrite rib_length in Hj.
  assert (B : forall i, (i < length (knots b) + 2)%nat -> exists p, (p < length (knots b))%nat /\
      nth i (knots (rib b)) 0 = nth p (knots b) 0 /\ (p = i - 1 \/ (i = S (length (knots b)) /\ p = length (knots b) - 1))%nat).
  { intros q Hq. destruct q as [|q].
    - exists 0%nat. repeat split; [lia|apply rib_0|left; lia].
    - destruct (Nat.eq_dec q (length (knots b))) as [->|Hn].
      + exists (length (knots b) - 1)%nat. repeat split; [lia|apply rib_end|right; lia].
      + exists q. repeat split; [lia|apply rib_mid; lia|left; lia]. }
  destruct (B i ltac:(lia)) as (p & Hp & -> & Hp').
  destruct (B j ltac:(lia)) as (q & Hq & -> & Hq'). apply Hs; lia.
Qed.

Lemma rib_wf : forall b, well_formed b -> well_formed (rib b).
Proof.
  intros b [Hs Hl]. split.
  - apply rib_sorted; auto. lia.
  - rewrite rib_length. simpl. lia.
Qed.

Definition spanw (s : bspline) (l : nat) : R :=
  (kn (sbasis s) (degree (sbasis s) + l + 1) - kn (sbasis s) l) / INR (degree (sbasis s) + 1)
   * nth l (coeffs s) 0.

Lemma cumul_length : forall b c n i acc, length (cumul b c i n acc) = n.
Proof. induction n; intros; simpl; [reflexivity|]. rewrite IHn. reflexivity. Qed.

Lemma cumul_nth : forall s n i acc j, (j < n)%nat ->
  nth j (cumul (sbasis s) (coeffs s) i n acc) 0 = acc + rsum (S j) (fun l => spanw s (i + l)).
Proof.
  induction n; intros i acc j H; [lia|]. simpl cumul. destruct j as [|j].
  - simpl. unfold spanw. rewrite !Nat.add_0_r. ring.
  - simpl nth. rewrite IHn by lia. rewrite (rsum_split0 (S j)).
    rewrite (rsum_ext (S j) (fun l => spanw s (i + S l)) (fun l => spanw s (S i + l)))
      by (intros; f_equal; lia).
    unfold spanw at 2. rewrite !Nat.add_0_r. ring.
Qed.

Lemma ri_blen : forall b, well_formed b -> (blen (rib b) - 1 = length (knots b) - degree b - 1)%nat.
Proof. intros b [Hs Hl]. unfold blen. rewrite rib_length. simpl. lia. Qed.

Lemma ri_basis : forall s, sbasis (running_integral s) = rib (sbasis s).
Proof. reflexivity. Qed.

Lemma ri_coeff : forall s j, well_formed (sbasis s) ->
  (j <= length (knots (sbasis s)) - degree (sbasis s) - 1)%nat ->
  cf (running_integral s) j = rsum j (spanw s).
Proof.
  intros s j WF Hj. unfold cf, running_integral. cbn [coeffs].
  fold (rib (sbasis s)). destruct j as [|j]; [reflexivity|].
  simpl nth. rewrite cumul_nth by (rewrite ri_blen by auto; lia). ring_simplify. reflexivity.
Qed.

Lemma ri_len : forall s, well_formed (sbasis s) ->
  length (coeffs (running_integral s)) = (length (knots (sbasis s)) - degree (sbasis s))%nat.
Proof.
  intros s WF. unfold running_integral. cbn [coeffs]. fold (rib (sbasis s)). simpl length.
  rewrite cumul_length, ri_blen by auto. destruct WF. lia.
Qed.

Lemma ri_sized : forall s, well_formed (sbasis s) -> sized (running_integral s).
Proof.
  intros s WF. unfold sized. rewrite ri_len by auto. rewrite ri_basis, rib_length. simpl. lia.
Qed.

Lemma bspline_eq : forall s t, knots (sbasis s) = knots (sbasis t) ->
  degree (sbasis s) = degree (sbasis t) -> coeffs s = coeffs t -> s = t.
Proof. intros [[k d] c] [[k' d'] c']; simpl; intros; subst; reflexivity. Qed.

(** differentiating the running integral gives the spline back *)
Theorem derivative_running_integral : forall s, well_formed (sbasis s) -> sized s ->
  supports_positive (sbasis s) -> derivative (running_integral s) 1 = s.
Proof.
  intros s WF SZ SP. apply bspline_eq.
  - rewrite deriv1_knots, ri_basis. apply list_nth_ext.
    + rewrite length_trim, rib_length. lia.
    + intros i Hi. rewrite length_trim, rib_length in Hi.
      rewrite nth_trim by (rewrite rib_length; lia). apply rib_mid. lia.
  - rewrite deriv1_degree, ri_basis. simpl. lia.
  - apply list_nth_ext.
    + rewrite deriv1_len, ri_len by auto. symmetry. etransitivity; [exact SZ|]. lia.
    + intros i Hi. rewrite deriv1_len, ri_len in Hi by auto.
      assert (RW := rib_wf _ WF). destruct WF as [Hs Hl].
      assert (WF : well_formed (sbasis s)) by (split; auto).
      change (cf (derivative (running_integral s) 1) i = nth i (coeffs s) 0).
      rewrite deriv1_cf.
      * rewrite !ri_coeff by (auto; lia). rewrite ri_basis. simpl degree.
        replace (i + 1)%nat with (S i) by lia. simpl rsum.
        unfold kn at 1 2. rewrite (rib_mid (sbasis s) i) by lia.
        replace (S i + (degree (sbasis s) + 1))%nat with (S (i + (degree (sbasis s) + 1))) by lia.
        rewrite (rib_mid (sbasis s) (i + (degree (sbasis s) + 1))) by lia.
        unfold spanw. unfold kn.
        replace (degree (sbasis s) + i + 1)%nat with (i + (degree (sbasis s) + 1))%nat by lia.
        pose proof (SP i ltac:(lia)).
        replace (i + degree (sbasis s) + 1)%nat with (i + (degree (sbasis s) + 1))%nat in H by lia.
        field. split; [|lra]. apply not_0_INR. lia.
      * apply ri_sized; auto.
      * rewrite ri_basis, rib_length. simpl degree. lia.
      * rewrite ri_basis. simpl degree. unfold kn. rewrite (rib_mid (sbasis s) i) by lia.
        replace (S i + (degree (sbasis s) + 1))%nat with (S (i + (degree (sbasis s) + 1))) by lia.
        rewrite (rib_mid (sbasis s) (i + (degree (sbasis s) + 1))) by lia.
        pose proof (SP i ltac:(lia)).
        replace (i + degree (sbasis s) + 1)%nat with (i + (degree (sbasis s) + 1))%nat in H by lia.
        exact H.
Qed.

Lemma rib_dom_left : forall b, well_formed b -> dom_left (rib b) = dom_left b.
Proof.
  intros b [Hs Hl]. unfold dom_left. simpl degree. replace (degree b + 1)%nat with (S (degree b)) by lia.
  apply rib_mid. lia.
Qed.
Lemma rib_dom_right : forall b, well_formed b -> dom_right (rib b) = dom_right b.
Proof.
  intros b [Hs Hl]. unfold dom_right. rewrite rib_length. simpl degree.
  replace (length (knots b) + 2 - (degree b + 1) - 1)%nat with (S (length (knots b) - degree b - 1)) by lia.
  apply rib_mid. lia.
Qed.
Lemma rib_mult : forall b x r, well_formed b -> dom_left b < x < dom_right b ->
  mult_le b x r -> mult_le (rib b) x r.
Proof.
  intros b x r [Hs Hl] Hx H i Hi [E1 E2]. rewrite rib_length in Hi.
  unfold dom_left, dom_right in Hx.
  assert (L : nth 0 (knots b) 0 < x) by (pose proof (Hs 0%nat (degree b) ltac:(lia) ltac:(lia)); lra).
  assert (U : x < nth (length (knots b) - 1) (knots b) 0)
    by (pose proof (Hs (length (knots b) - degree b - 1)%nat (length (knots b) - 1)%nat ltac:(lia) ltac:(lia)); lra).
  destruct i as [|i].
  - rewrite rib_0 in E1. lra.
  - destruct (Nat.eq_dec (S i + r) (S (length (knots b)))) as [E|E].
    + rewrite E, rib_end in E2. lra.
    + apply (H i); [lia|]. rewrite rib_mid in E1 by lia.
      change (S i + r)%nat with (S (i + r)) in E2. rewrite rib_mid in E2 by lia. auto.
Qed.

Theorem running_integral_correct : forall s x, well_formed (sbasis s) -> sized s ->
  supports_positive (sbasis s) ->
  dom_left (sbasis s) < x < dom_right (sbasis s) ->
  mult_le (sbasis s) x (degree (sbasis s)) ->
  derivable_pt_lim (call (running_integral s)) x (call s x).
Proof.
  intros s x WF SZ SP Hx Hm.
  rewrite <- (derivative_running_integral s) at 2 by auto.
  apply derivative1_correct.
  - rewrite ri_basis. apply rib_wf; auto.
  - apply ri_sized; auto.
  - rewrite ri_basis. simpl. lia.
  - rewrite ri_basis, rib_dom_left, rib_dom_right by auto. exact Hx.
  - rewrite ri_basis. simpl degree. replace (degree (sbasis s) + 1 - 1)%nat with (degree (sbasis s)) by lia.
    apply rib_mult; auto.
Qed.

Theorem running_integral_start : forall s, well_formed (sbasis s) -> sized s ->
  clamped (sbasis s) -> call (running_integral s) (nth 0 (knots (sbasis s)) 0) = 0.
Proof.
  intros s WF SZ (C1 & C2 & C3 & C4). rewrite <- rib_0.
  rewrite <- ri_basis. rewrite call_left_end.
  - reflexivity.
  - rewrite ri_basis. apply rib_wf; auto.
  - apply ri_sized; auto.
  - rewrite ri_basis, rib_0, rib_dom_left by auto. exact C1.
  - rewrite ri_basis, rib_dom_left by auto. simpl degree.
    replace (degree (sbasis s) + 1 + 1)%nat with (S (degree (sbasis s) + 1)) by lia.
    destruct WF. rewrite rib_mid by lia. exact C3.
Qed.

Lemma integral_rsum : forall s, sized s -> integral s = rsum (length (coeffs s)) (spanw s).
Proof.
  intros s SZ. unfold integral.
  assert (G : forall n l a, length l = n ->
    fold_left Rplus l a = a + rsum n (fun i => nth i l 0)).
  { induction n; intros [|x l] a H; try discriminate; [simpl; ring|].
    simpl fold_left. rewrite IHn by (simpl in H; lia). rewrite rsum_split0. simpl. ring. }
  set (b := sbasis s) in *.
  set (K := map (fun i => (kn b (i + (degree b + 1)) - kn b i) / (INR (degree b) + 1))
             (seq 0 (length (knots b) - (degree b + 1)))).
  assert (LK : length K = length (coeffs s)).
  { unfold K. rewrite map_length, seq_length. unfold sized in SZ. fold b in SZ. lia. }
  rewrite (G (length (coeffs s))) by (rewrite map_length, combine_length; lia).
  rewrite Rplus_0_l. apply rsum_ext. intros i Hi.
  rewrite (nth_indep _ 0 ((fun p : R * R => fst p * snd p) (0, 0)))
    by (rewrite map_length, combine_length; lia).
  rewrite (map_nth (fun p : R * R => fst p * snd p)). rewrite combine_nth by auto. simpl.
  unfold K. rewrite nth_map_seq by (unfold sized in SZ; fold b in SZ; lia).
  unfold spanw. fold b. rewrite plus_INR. simpl (INR 1).
  replace (degree b + i + 1)%nat with (i + (degree b + 1))%nat by lia. reflexivity.
Qed.

Theorem running_integral_end : forall s, well_formed (sbasis s) -> sized s ->
  clamped (sbasis s) ->
  call (running_integral s) (nth (length (knots (sbasis s)) - 1) (knots (sbasis s)) 0) = integral s.
Proof.
  intros s WF SZ (C1 & C2 & C3 & C4).
  rewrite <- C2. fold (dom_right (sbasis s)). rewrite <- rib_dom_right by auto.
  rewrite <- ri_basis. rewrite call_right_end.
  - rewrite integral_rsum by auto. rewrite ri_len by auto.
    change (cf (running_integral s) (length (knots (sbasis s)) - degree (sbasis s) - 1)
      = rsum (length (coeffs s)) (spanw s)).
    rewrite ri_coeff by auto. rewrite SZ. reflexivity.
  - rewrite ri_basis. apply rib_wf; auto.
  - apply ri_sized; auto.
  - rewrite ri_basis, rib_dom_right, rib_length by auto.
    replace (length (knots (sbasis s)) + 2 - 1)%nat with (S (length (knots (sbasis s)))) by lia.
    rewrite rib_end. exact C2.
  - rewrite ri_basis, rib_dom_right, rib_length by auto. simpl degree. destruct WF.
    replace (length (knots (sbasis s)) + 2 - (degree (sbasis s) + 1) - 2)%nat
      with (S (length (knots (sbasis s)) - degree (sbasis s) - 2)) by lia.
    rewrite rib_mid by lia. exact C4.
Qed.

(** the definite integral is the Riemann integral *)
Theorem definite_integral_correct : forall s a c (pr : Riemann_integrable (call s) a c),
  well_formed (sbasis s) -> sized s -> supports_positive (sbasis s) ->
  dom_left (sbasis s) < a -> a <= c -> c < dom_right (sbasis s) ->
  (forall x, a <= x <= c -> mult_le (sbasis s) x (degree (sbasis s))) ->
  definite_integral s a c = RiemannInt pr.
Proof.
  intros s a c pr WF SZ SP Ha Hac Hc Hm. unfold definite_integral.
  rewrite !evalspline_call by (apply ri_sized; auto).
  set (F := call (running_integral s)).
  assert (AF : antiderivative (call s) F a c).
  { split; [|exact Hac]. intros x Hx.
    assert (DF : derivable_pt_lim F x (call s x)) by (apply running_integral_correct; auto; lra).
    exists (exist _ _ DF). reflexivity. }
  assert (C0 : forall x, a <= x <= c -> continuity_pt (call s) x)
    by (intros; apply call_continuous; auto; lra).
  pose proof (RiemannInt_P29 Hac C0) as AP.
  destruct (antiderivative_Ucte _ _ _ _ _ AF AP) as [k Hk].
  rewrite (Hk c), (Hk a) by lra.
  unfold primitive.
  destruct (Rle_dec a a) as [Ea|Ea]; [|exfalso; apply Ea; apply Rle_refl].
  destruct (Rle_dec a c) as [Eb|Eb]; [|exfalso; apply Eb; exact Hac].
  destruct (Rle_dec c c) as [Ec|Ec]; [|exfalso; apply Ec; apply Rle_refl].
  rewrite (RiemannInt_P9 (FTC_P1 Hac C0 Ea Eb)).
  rewrite (RiemannInt_P5 (FTC_P1 Hac C0 Eb Ec) pr). ring.
Qed.

(** ** scale *)
Lemma scale_kn : forall b f sft i, (i < length (knots b))%nat ->
  kn (scale_basis b f sft) i = kn b i * f + sft.
Proof.
  intros. unfold kn, scale_basis. simpl.
  rewrite (nth_indep _ 0 ((fun k => k * f + sft) 0)) by (rewrite map_length; auto).
  rewrite (map_nth (fun k => k * f + sft)). reflexivity.
Qed.

Lemma scale_cmp : forall f sft x y, 0 < f -> Rleb (x * f + sft) (y * f + sft) = Rleb x y.
Proof.
  intros. destruct (Rleb x y) eqn:E.
  - apply Rleb_true in E. apply Rleb_true. nra.
  - apply Rleb_false in E. apply Rleb_false. nra.
Qed.
Lemma scale_cmplt : forall f sft x y, 0 < f -> Rltb (x * f + sft) (y * f + sft) = Rltb x y.
Proof.
  intros. destruct (Rltb x y) eqn:E.
  - apply Rltb_true in E. apply Rltb_true. nra.
  - apply Rltb_false in E. apply Rltb_false. nra.
Qed.
Lemma scale_cmpeq : forall f sft x y, 0 < f -> Reqb (x * f + sft) (y * f + sft) = Reqb x y.
Proof.
  intros. destruct (Reqb x y) eqn:E.
  - apply Reqb_true in E. subst. apply Reqb_true. reflexivity.
  - apply Reqb_false in E. apply Reqb_false. intro. apply E. nra.
Qed.

Lemma scale_row : forall b f sft x, 0 < f -> forall d,
  basis_row (scale_basis b f sft) (x * f + sft) d = basis_row b x d.
Proof.
  intros b f sft x Hf.
  assert (LL : length (knots (scale_basis b f sft)) = length (knots b)) by (simpl; apply map_length).
  induction d as [|d IH].
  - cbn [basis_row]. rewrite LL. apply map_ext_in. intros i Hi. apply in_seq in Hi. f_equal.
    unfold ind. rewrite !scale_kn by lia. simpl degree.
    rewrite !scale_cmp, scale_cmplt, scale_cmpeq by auto. reflexivity.
  - cbn [basis_row]. unfold next_row. rewrite LL, IH. apply map_ext_in. intros i Hi. apply in_seq in Hi.
    rewrite !scale_kn by lia.
    assert (Q : forall p q, Reqb (p * f + sft - (q * f + sft)) 0 = Reqb (p - q) 0).
    { intros p q. destruct (Reqb (p - q) 0) eqn:E.
      - apply Reqb_true in E. apply Reqb_true. replace p with q by lra. ring.
      - apply Reqb_false in E. apply Reqb_false. intro. apply E. nra. }
    cbv zeta. rewrite !Q.
    assert (B1 : (if Reqb (kn b (i + S d) - kn b i) 0 then 0 * (x * f + sft)
       else (x * f + sft - (kn b i * f + sft)) * nth i (basis_row b x d) 0
          / (kn b (i + S d) * f + sft - (kn b i * f + sft)))
      = (if Reqb (kn b (i + S d) - kn b i) 0 then 0 * x
         else (x - kn b i) * nth i (basis_row b x d) 0 / (kn b (i + S d) - kn b i))).
    { destruct (Reqb _ 0) eqn:E; [ring|]. apply Reqb_false in E. field. split; [lra|].
      intro Z. apply E. nra. }
    rewrite B1. destruct (Reqb (kn b (i + S d + 1) - kn b (i + 1)) 0) eqn:E; [reflexivity|].
    f_equal. apply Reqb_false in E. field. split; [lra|]. intro Z. apply E. nra.
Qed.

Theorem scale_call : forall s f sft x, 0 < f -> call (scale s f sft) (x * f + sft) = call s x.
Proof.
  intros s f sft x Hf. unfold call, scale. simpl sbasis. simpl coeffs.
  unfold eval_basis. simpl degree. rewrite scale_row by auto. reflexivity.
Qed.
