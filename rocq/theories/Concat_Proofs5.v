(** Proofs about concat_splines: when the sites avoid the joint, what happens
    when they do not, the two segment-wise problems. *)
From Coq Require Import Reals Lra Lia List Permutation Arith ZArith.
From Verif Require Import Blossom Spline_Model Spline_Spec Spline_Proofs Spline_Proofs2 Spline_Proofs3 Spline_Proofs5
  Splop_Model Splop_Spec Splop_Proofs Splop_Proofs2 Span_Proofs End_Proofs Contact_Proofs
  Multi_Model Multi_Spec Multi_Proofs Concat_Model Concat_Spec Concat_Proofs Concat_Proofs2 Concat_Proofs3 Concat_Proofs4.
Import ListNotations.
Local Open Scope R_scope.

(** ** sites, one by one *)
Lemma rev_two : forall (g : list R) z y r, rev g = z :: y :: r -> g = rev r ++ [y; z].
Proof. intros g z y r H. rewrite <- (rev_involutive g), H. simpl. rewrite <- app_assoc. reflexivity. Qed.

Lemma move_first_nth : forall g i, (2 <= length g)%nat ->
  nth i (move_first g) 0 = if (i =? 0)%nat then nth 0 g 0 + (nth 1 g 0 - nth 0 g 0) * (1 / 100) else nth i g 0.
Proof.
  intros [|u [|v r]] i L; simpl in L; try lia. destruct i as [|[|i]]; reflexivity.
Qed.
Lemma move_first_len : forall g, length (move_first g) = length g.
Proof. intros [|u [|v r]]; reflexivity. Qed.
Lemma move_last_split : forall g, (2 <= length g)%nat -> exists r y z, g = r ++ [y; z] /\
  move_last g = r ++ [y; z - (z - y) * (1 / 100)].
Proof.
  intros g L. unfold move_last. destruct (rev g) as [|z [|y r]] eqn:E.
  - apply (f_equal (@length R)) in E. rewrite rev_length in E. simpl in E. lia.
  - apply (f_equal (@length R)) in E. rewrite rev_length in E. simpl in E. lia.
  - exists (rev r), y, z. split; [apply rev_two; exact E|]. simpl. rewrite <- app_assoc. reflexivity.
Qed.
Lemma move_last_nth : forall g i, (2 <= length g)%nat -> (i < length g)%nat ->
  nth i (move_last g) 0 = if (i =? length g - 1)%nat
    then nth (length g - 1) g 0 - (nth (length g - 1) g 0 - nth (length g - 2) g 0) * (1 / 100)
    else nth i g 0.
Proof.
  intros g i L Hi. destruct (move_last_split g L) as (r & y & z & E1 & E2).
  rewrite E2. subst g. rewrite app_length in *. simpl length in *.
  replace (length r + 2 - 1)%nat with (length r + 1)%nat by lia.
  replace (length r + 2 - 2)%nat with (length r + 0)%nat by lia.
  rewrite !app_nth2_plus. simpl nth.
  destruct (Nat.eqb_spec i (length r + 1)) as [-> | N].
  - rewrite app_nth2_plus. reflexivity.
  - destruct (le_lt_dec (length r) i).
    + replace i with (length r + 0)%nat by lia. rewrite !app_nth2_plus. reflexivity.
    + rewrite !app_nth1 by lia. reflexivity.
Qed.
Lemma move_last_len : forall g, length (move_last g) = length g.
Proof.
  intros g. unfold move_last. destruct (rev g) as [|z [|y r]] eqn:E; auto.
  apply (f_equal (@length R)) in E. rewrite rev_length in *. rewrite E. reflexivity.
Qed.

Definition gv (b : bbasis) (i : nat) : R := nth i (greville b) 0.

Lemma sites_nth : forall b i, (3 <= blen b)%nat -> (i < blen b)%nat ->
  nth i (sites b) 0 = if (i =? 0)%nat then gv b 0 + (gv b 1 - gv b 0) * (1 / 100)
    else if (i =? blen b - 1)%nat
    then gv b (blen b - 1) - (gv b (blen b - 1) - gv b (blen b - 2)) * (1 / 100)
    else gv b i.
Proof.
  intros b i L Hi. unfold sites, gv.
  assert (LG : length (greville b) = blen b) by (unfold greville; rewrite map_length, seq_length; reflexivity).
  rewrite move_last_nth by (rewrite move_first_len; lia). rewrite move_first_len, LG.
  rewrite !move_first_nth by lia.
  destruct (Nat.eqb_spec i 0) as [-> | N0].
  - destruct (Nat.eqb_spec 0 (blen b - 1)); [lia|]. reflexivity.
  - destruct (Nat.eqb_spec i (blen b - 1)) as [E|E]; [|reflexivity].
    destruct (Nat.eqb_spec (blen b - 1) 0); [lia|]. destruct (Nat.eqb_spec (blen b - 2) 0); [lia|]. reflexivity.
Qed.
Lemma sites_len : forall b, length (sites b) = blen b.
Proof.
  intros b. unfold sites. rewrite move_last_len, move_first_len. unfold greville.
  rewrite map_length, seq_length. reflexivity.
Qed.
Lemma sites_inner : forall b i, (0 < i)%nat -> (i + 1 < blen b)%nat -> In (gv b i) (sites b).
Proof.
  intros b i H1 H2. assert (E := sites_nth b i ltac:(lia) ltac:(lia)).
  destruct (Nat.eqb_spec i 0); [lia|]. destruct (Nat.eqb_spec i (blen b - 1)); [lia|].
  rewrite <- E. apply nth_In. rewrite sites_len. lia.
Qed.
Lemma gv_eq : forall b i, (i < blen b)%nat ->
  gv b i = 1 / INR (degree b) * fold_left Rplus (map (kn b) (seq (i + 1) (degree b))) 0.
Proof. intros b i Hi. unfold gv, greville. apply nth_map_seq. exact Hi. Qed.

Lemma gv_mono : forall b i j, well_formed b -> (1 <= degree b)%nat -> (i <= j)%nat -> (j < blen b)%nat ->
  gv b i <= gv b j.
Proof.
  intros b i j WF Hd Hij Hj. rewrite !gv_eq by lia.
  apply Rmult_le_compat_l.
  { unfold Rdiv. rewrite Rmult_1_l. left. apply Rinv_0_lt_compat. apply lt_0_INR. lia. }
  unfold blen in Hj.
  assert (G : forall n acc acc', acc <= acc' -> (j + n < length (knots b))%nat -> forall i0 j0, (i0 <= j0)%nat ->
     (j0 + n <= j + degree b + 1)%nat ->
     fold_left Rplus (map (kn b) (seq i0 n)) acc <= fold_left Rplus (map (kn b) (seq j0 n)) acc').
  { induction n as [|n IH]; intros acc acc' Ha Hn i0 j0 H0 H1; [exact Ha|]. simpl. apply IH; try lia.
    apply Rplus_le_compat; [exact Ha|]. unfold kn. apply (proj1 WF); lia. }
  apply G; try lia. lra.
Qed.

(** ** a joint with degree copies is always a site *)
Section Sites.
Variables (P s : bspline) (p n : nat) (lo tau T : R).
Hypothesis CP : clamped_on (sbasis P) lo tau.
Hypothesis CS : clamped_on (sbasis s) 0 1.
Hypothesis DP : degree (sbasis P) = p.
Hypothesis DS : degree (sbasis s) = p.
Hypothesis HT : 0 < T.
Hypothesis Hn1 : (1 <= n)%nat.
Hypothesis Hn2 : (n <= p + 1)%nat.
Hypothesis Hp : (1 <= p)%nat.

Let Q := scale s T tau.
Let CQ : clamped_on (sbasis Q) tau (tau + T) := Q_clamped s tau T CS HT.
Let a := (length (knots (sbasis P)) - (p + 1))%nat.
Let jb := jbasis P Q p n.

Let LPa : (p + 1 <= a)%nat.
Proof. pose proof (LP' P p lo tau CP DP). unfold a. lia. Qed.
Let LQs : (2 * p + 2 <= length (knots (sbasis Q)))%nat.
Proof. destruct CQ as ((_ & L) & _). exact (eq_rect _ (fun q => (2 * q + 2 <= _)%nat) L p DS). Qed.
Let LJ : length (knots jb) = (a + n + (length (knots (sbasis Q)) - (p + 1)))%nat.
Proof. exact (jb_len P Q p n lo tau (tau + T) CP CQ DP DS Hn1 Hn2). Qed.
Let BJ : blen jb = (a + n + (length (knots (sbasis Q)) - (p + 1)) - p - 1)%nat.
Proof. unfold blen. rewrite LJ. reflexivity. Qed.

Lemma joint_site_full : n = p -> In tau (sites jb).
Proof.
  intros En. replace tau with (gv jb (a - 1)).
  - apply sites_inner; rewrite ?BJ; lia.
  - rewrite gv_eq by (rewrite BJ; lia). change (degree jb) with p.
    rewrite (map_const_repeat (kn jb) tau p (a - 1 + 1)).
    + assert (F : forall m acc, fold_left Rplus (repeat tau m) acc = acc + INR m * tau).
      { induction m as [|m IH]; intros acc; [simpl; ring|]. simpl repeat. simpl fold_left. rewrite IH.
        rewrite S_INR. ring. }
      rewrite F. field. apply not_0_INR. lia.
    + intros j Hj. apply (jb_mid P Q p n lo tau (tau + T) CP CQ DP DS Hn1 Hn2). fold a. lia.
Qed.

Let below : forall i, (i < a)%nat -> kn jb i < tau := jb_below P Q p n lo tau (tau + T) CP CQ DP DS Hn1 Hn2.
Let above : forall i, (a + n <= i)%nat -> (i < length (knots jb))%nat -> tau < kn jb i :=
  jb_above P Q p n lo tau (tau + T) CP CQ DP DS Hn1 Hn2.
Let mid : forall i, (a <= i < a + n)%nat -> kn jb i = tau := jb_mid P Q p n lo tau (tau + T) CP CQ DP DS Hn1 Hn2.
Let WJ : well_formed jb := proj1 (jb_clamped P Q p n lo tau (tau + T) CP CQ DP DS Hn1 Hn2).
Let CJ := jb_clamped P Q p n lo tau (tau + T) CP CQ DP DS Hn1 Hn2.

(** sites other than the inner averages are never the joint *)
Lemma moved_sites : n = 1%nat -> (2 <= p)%nat -> In tau (sites jb) ->
  exists i, (i < blen jb)%nat /\ gv jb i = tau.
Proof.
  intros En Hp2 I. apply (In_nth _ _ 0) in I. destruct I as (i & Hi & E). rewrite sites_len in Hi.
  assert (B3 : (3 <= blen jb)%nat) by (rewrite BJ; lia).
  rewrite sites_nth in E by assumption.
  assert (G0 : gv jb 0 = lo).
  { assert (B := greville_bounds jb 0 WJ Hp ltac:(lia)). fold (gv jb 0) in B.
    destruct CJ as (_ & (C1 & _) & E1 & _).
    assert (X1 : nth 1 (knots jb) 0 = lo).
    { assert (X := proj1 WJ 0%nat 1%nat ltac:(lia) ltac:(rewrite LJ; lia)).
      assert (Y := proj1 WJ 1%nat p ltac:(lia) ltac:(rewrite LJ; lia)).
      change (degree (jbasis P Q p n)) with p in C1. fold jb in C1, E1. lra. }
    assert (X2 : nth p (knots jb) 0 = lo).
    { change (degree (jbasis P Q p n)) with p in C1. fold jb in C1, E1. lra. }
    change (degree jb) with p in B. simpl Nat.add in B. rewrite X1, X2 in B. lra. }
  assert (GN : gv jb (blen jb - 1) = tau + T).
  { assert (B := greville_bounds jb (blen jb - 1) WJ Hp ltac:(lia)). fold (gv jb (blen jb - 1)) in B.
    destruct CJ as (_ & (_ & C2 & _) & _ & E2). change (degree (jbasis P Q p n)) with p in C2. fold jb in C2, E2.
    change (degree jb) with p in B.
    assert (X1 : nth (blen jb - 1 + 1) (knots jb) 0 = tau + T).
    { replace (blen jb - 1 + 1)%nat with (length (knots jb) - p - 1)%nat by (rewrite BJ, LJ; lia). lra. }
    assert (X2 : nth (blen jb - 1 + p) (knots jb) 0 <= tau + T).
    { rewrite <- E2. apply (proj1 WJ); rewrite ?BJ, ?LJ; lia. }
    lra. }
  assert (LT : lo < tau) by (apply (clamped_count _ _ _ CP)).
  destruct (Nat.eqb_spec i 0) as [-> | N0].
  - exfalso. (* the first point moves towards the second, which is at most the joint *)
    assert (G1 : gv jb 1 <= tau).
    { assert (B := greville_bounds jb 1 WJ Hp ltac:(lia)). fold (gv jb 1) in B.
      assert (X : nth (1 + degree jb) (knots jb) 0 <= tau).
      { change (degree jb) with p. destruct (Nat.eq_dec (1 + p) a) as [A|A].
        - rewrite A. fold (kn jb a). rewrite mid by lia. lra.
        - left. apply below. lia. }
      lra. }
    lra.
  - destruct (Nat.eqb_spec i (blen jb - 1)) as [E1|E1].
    + exfalso.
      assert (G1 : tau <= gv jb (blen jb - 2)).
      { assert (B := greville_bounds jb (blen jb - 2) WJ Hp ltac:(lia)). fold (gv jb (blen jb - 2)) in B.
        assert (X : tau <= nth (blen jb - 2 + 1) (knots jb) 0).
        { fold (kn jb (blen jb - 2 + 1)).
          destruct (le_lt_dec (a + n) (blen jb - 2 + 1)) as [A|A].
          - left. apply above; [exact A|rewrite BJ, LJ; lia].
          - rewrite mid; [lra|]. rewrite BJ in *. lia. }
        lra. }
      lra.
    + exists i. split; assumption.
Qed.

(** quadratic splines with one knot at the joint: never *)
Lemma quadratic_clear : p = 2%nat -> n = 1%nat -> ~ In tau (sites jb).
Proof.
  intros E2 En I. destruct (moved_sites En ltac:(lia) I) as (i & Hi & E).
  rewrite gv_eq in E by exact Hi. rewrite BJ in Hi.
  replace (degree jb) with 2%nat in E by (change (degree jb) with p; lia). cbn [seq map fold_left] in E.
  assert (EQ : kn jb (i + 1) + kn jb (S (i + 1)) = 2 * tau) by (simpl INR in E; lra). clear E.
  destruct (lt_eq_lt_dec (i + 1) a) as [[A|A]|A].
  - assert (B1 := below (i + 1)%nat A).
    destruct (Nat.eq_dec (S (i + 1)) a) as [C|C].
    + assert (M := mid (S (i + 1)) ltac:(lia)). lra.
    + assert (B2 := below (S (i + 1)) ltac:(lia)). lra.
  - assert (M := mid (i + 1)%nat ltac:(lia)). assert (B2 := above (S (i + 1)) ltac:(lia) ltac:(rewrite LJ; lia)). lra.
  - assert (B1 := above (i + 1)%nat ltac:(lia) ltac:(rewrite LJ; lia)).
    assert (B2 := above (S (i + 1)) ltac:(lia) ltac:(rewrite LJ; lia)). lra.
Qed.

(** cubic splines with one knot at the joint: exactly when the last knot
    interval before and the first one behind the joint are equally long *)
Lemma cubic_site : p = 3%nat -> n = 1%nat ->
  (In tau (sites jb) <->
   tau - nth (length (knots (sbasis P)) - 5) (knots (sbasis P)) 0
   = nth 4 (knots (sbasis s)) 0 * T).
Proof.
  intros E3 En.
  assert (KL : kn jb (a - 1) = nth (length (knots (sbasis P)) - 5) (knots (sbasis P)) 0).
  { unfold jb. rewrite (jb_left P Q p n lo tau (tau + T) CP CQ DP DS Hn1 Hn2) by (fold a; lia).
    f_equal. unfold a. lia. }
  assert (KR : kn jb (a + 1) = nth 4 (knots (sbasis s)) 0 * T + tau).
  { unfold jb. rewrite (jb_right P Q p n lo tau (tau + T) CP CQ DP DS Hn1 Hn2) by (fold a; lia). fold a.
    replace (a + 1 - a + (p + 1 - n))%nat with 4%nat by lia.
    apply (scale_kn (sbasis s) T tau 4). unfold Q, scale, scale_basis in LQs. cbn in LQs.
    rewrite map_length in LQs. lia. }
  assert (KM := mid a ltac:(lia)).
  split.
  - intros I. destruct (moved_sites En ltac:(lia) I) as (i & Hi & E).
    rewrite gv_eq in E by exact Hi. rewrite BJ in Hi.
    replace (degree jb) with 3%nat in E by (change (degree jb) with p; lia). cbn [seq map fold_left] in E.
    assert (EQ : kn jb (i + 1) + kn jb (S (i + 1)) + kn jb (S (S (i + 1))) = 3 * tau) by (simpl INR in E; lra). clear E.
    assert (W : forall j, (j <= a)%nat -> kn jb j <= tau).
    { intros j Hj. destruct (Nat.eq_dec j a) as [-> | N]; [lra|left; apply below; lia]. }
    assert (V : forall j, (a <= j)%nat -> (j < length (knots jb))%nat -> tau <= kn jb j).
    { intros j Hj HL. destruct (Nat.eq_dec j a) as [-> | N]; [lra|left; apply above; [lia|exact HL]]. }
    destruct (Nat.eq_dec (i + 2) a) as [C|C].
    + replace (i + 1)%nat with (a - 1)%nat in EQ by lia. replace (S (S (a - 1))) with (a + 1)%nat in EQ by lia.
      replace (S (a - 1)) with a in EQ by lia. rewrite KL, KR, KM in EQ. lra.
    + exfalso. destruct (le_lt_dec (i + 2) a) as [D|D].
      * assert (B1 := below (i + 1)%nat ltac:(lia)). assert (B2 := W (S (i + 1)) ltac:(lia)).
        assert (B3 := W (S (S (i + 1))) ltac:(lia)). lra.
      * assert (B1 := V (i + 1)%nat ltac:(lia) ltac:(rewrite LJ; lia)).
        assert (B2 := above (S (i + 1)) ltac:(lia) ltac:(rewrite LJ; lia)).
        assert (B3 := V (S (S (i + 1))) ltac:(lia) ltac:(rewrite LJ; lia)). lra.
  - intros E. replace tau with (gv jb (a - 2)).
    + apply sites_inner; rewrite ?BJ; lia.
    + rewrite gv_eq by (rewrite BJ; lia).
      replace (degree jb) with 3%nat by (change (degree jb) with p; lia).
      replace (a - 2 + 1)%nat with (a - 1)%nat by lia. cbn [seq map fold_left].
      replace (S (S (a - 1))) with (a + 1)%nat by lia. replace (S (a - 1)) with a by lia.
      rewrite KL, KR, KM. simpl INR. lra.
Qed.
End Sites.
