(** Expressions of polynomials can always be built; their coefficients follow
    from their values. *)
From Coq Require Import Reals List Arith Bool ZArith Lia Lra.
From Verif Require Import Spline_Model Spline_Spec Spline_Proofs Splop_Model Splop_Spec Splop_Proofs Splop_Proofs2 Splop_Proofs3 Splop_Proofs4
  Vehicle_Model Vehicle_Spec Lift_Model Lift_Spec Lift_Proofs Lift_Proofs2 Lift_Examples Bern_Spec Bern_Proofs Bern_Proofs2.
Import ListNotations.
Local Open Scope R_scope.

Lemma add_bern_ok : forall tol s t a b, sbasis s = bern a -> sbasis t = bern b -> (Nat.max a b <= 250)%nat ->
  exists u, add_spline tol s t = Some u /\ sbasis u = bern (Nat.max a b).
Proof.
  intros tol s t a b Es Et L. destruct (add_ok tol s t) as [u U].
  - rewrite Es, Et, add_bern. apply bern_regular, L.
  - exists u. split; [exact U|]. rewrite (add_basis _ _ _ _ U), Es, Et. apply add_bern.
Qed.
Lemma mul_bern_ok : forall tol s t a b, sbasis s = bern a -> sbasis t = bern b -> (a + b <= 250)%nat ->
  exists u, mul_spline tol s t = Some u /\ sbasis u = bern (a + b).
Proof.
  intros tol s t a b Es Et L. destruct (mul_ok tol s t) as [u U].
  - rewrite Es, Et, mul_bern. apply bern_regular, L.
  - exists u. split; [exact U|]. rewrite (mul_basis _ _ _ _ U), Es, Et. apply mul_bern.
Qed.
Lemma pow_bern_ok : forall tol s a k u b, sbasis s = bern a -> sbasis u = bern b -> (b + k * a <= 250)%nat ->
  exists w, pow_go tol s u k = Some w /\ sbasis w = bern (b + k * a).
Proof.
  intros tol s a. induction k as [|k IH]; intros u b Es Eu L; cbn [pow_go].
  - exists u. split; [reflexivity|]. rewrite Eu. f_equal. lia.
  - destruct (mul_bern_ok tol u s b a Eu Es ltac:(lia)) as (v & -> & Ev).
    destruct (IH v (b + a)%nat Es Ev ltac:(lia)) as (w & W & Ew). exists w. split; [exact W|]. rewrite Ew. f_equal. lia.
Qed.

Definition has_degree (d : option nat) (o : pyobj) : Prop :=
  match d, o with
  | None, Num _ => True
  | Some n, Spl s => sbasis s = bern n
  | _, _ => False
  end.
Lemma o_neg_degree : forall d o, has_degree d o -> has_degree d (o_neg o).
Proof. intros [n|] [r|s] H; exact H. Qed.
Lemma o_add_degree : forall tol x y a b, has_degree x a -> has_degree y b ->
  match join Nat.max x y with Some d => (d <= 250)%nat | None => True end ->
  exists o, o_add tol a b = Some o /\ has_degree (join Nat.max x y) o.
Proof.
  intros tol [n|] [m|] [r|s] [q|t] A B L; cbn in *; try contradiction; try (eexists; split; [reflexivity|]; assumption).
  - destruct (add_bern_ok tol s t n m A B L) as (u & -> & E). eexists. split; [reflexivity|]. exact E.
Qed.
Lemma o_mul_degree : forall tol x y a b, has_degree x a -> has_degree y b ->
  match join Nat.add x y with Some d => (d <= 250)%nat | None => True end ->
  exists o, o_mul tol a b = Some o /\ has_degree (join Nat.add x y) o.
Proof.
  intros tol [n|] [m|] [r|s] [q|t] A B L; cbn in *; try contradiction; try (eexists; split; [reflexivity|]; assumption).
  - destruct (mul_bern_ok tol s t n m A B L) as (u & -> & E). eexists. split; [reflexivity|]. exact E.
Qed.

Theorem build_poly : forall tol X D e, polynomial X D e -> below_degree 250 D e ->
  exists o, build tol X e = Some o /\ has_degree (deg_of D e) o.
Proof.
  intros tol X D. induction e as [i k|r|a IHa b IHb|a IHa b IHb|a IHa b IHb|a IHa|a IHa n]; intros P L; cbn [build deg_of polynomial below_degree] in *.
  - eexists. split; [reflexivity|]. destruct P as (E & _ & K). cbn. apply deriv_bern; assumption.
  - eexists. split; [reflexivity|exact I].
  - destruct P as [Pa Pb], L as (L & La & Lb). destruct (IHa Pa La) as (u & -> & U). destruct (IHb Pb Lb) as (v & -> & V).
    apply o_add_degree; assumption.
  - destruct P as [Pa Pb], L as (L & La & Lb). destruct (IHa Pa La) as (u & -> & U). destruct (IHb Pb Lb) as (v & -> & V).
    apply o_add_degree; try assumption. apply o_neg_degree, V.
  - destruct P as [Pa Pb], L as (L & La & Lb). destruct (IHa Pa La) as (u & -> & U). destruct (IHb Pb Lb) as (v & -> & V).
    apply o_mul_degree; assumption.
  - destruct L as (L & La). destruct (IHa P La) as (u & -> & U). eexists. split; [reflexivity|]. apply o_neg_degree, U.
  - destruct P as [Pa Pn], L as (L & La). destruct (IHa Pa La) as (u & -> & U).
    destruct (deg_of D a) as [d|], u as [r|s]; cbn in U; try contradiction.
    + cbn [o_pow]. assert (K : Z.to_nat (Z.of_nat n - 1) = (n - 1)%nat) by lia.
      destruct (pow_bern_ok tol s d (n - 1) s d U U ltac:(nia)) as (w & W & Ew).
      unfold pow_spline. rewrite K, W. eexists. split; [reflexivity|]. cbn. rewrite Ew. f_equal. nia.
    + cbn [o_pow]. eexists. split; [reflexivity|exact I].
Qed.

Lemma poly_fits : forall X D e, polynomial X D e -> fits X e.
Proof.
  intros X D. induction e as [i k|r|a IHa b IHb|a IHa b IHb|a IHa b IHb|a IHa|a IHa n]; intros P; cbn in *; auto; try tauto.
  destruct P as (E & L & K). rewrite E. split; [|exact K]. split; [rewrite E; apply bern_clamped|]. unfold sized. rewrite E, L. symmetry. apply bern_blen.
Qed.

(** ** coefficients from values *)
Lemma dot_minus : forall r u v, length u = length v -> dot r (map (fun p => fst p - snd p) (combine u v)) = dot r u - dot r v.
Proof.
  induction r as [|a r IH]; intros [|b u] [|c v] L; cbn in *; try discriminate; try ring. rewrite IH by lia. ring.
Qed.
Theorem bern_coeffs : forall d c c', (d <= 250)%nat -> length c = S d -> length c' = S d ->
  (forall x, 0 <= x <= 1 -> call (mkS (bern d) c) x = call (mkS (bern d) c') x) -> c = c'.
Proof.
  intros d c c' D L L' H. pose proof (bern_regular d D) as R. rewrite bern_blen in R.
  specialize (R (map (fun p => fst p - snd p) (combine c c'))).
  assert (Z : map (fun p => fst p - snd p) (combine c c') = repeat 0 (S d)).
  { apply R; [rewrite map_length, combine_length; lia|].
    intros r Hr. unfold colloc in Hr. apply in_map_iff in Hr. destruct Hr as (j & <- & _).
    rewrite dot_minus by lia. rewrite bern_grid. specialize (H (INR (maxpos (bern d) j) / 500) (grid_frac _ (maxpos_lt _ _))).
    unfold call in H. cbn [sbasis coeffs] in H. rewrite H. ring. }
  clear -L L' Z. revert L L' Z. generalize (S d). intros n. revert c c'.
  induction n as [|n IH]; intros [|a c] [|b c'] L L' Z; cbn in *; try discriminate; [reflexivity|].
  injection Z as Z0 Z1. f_equal; [lra|apply IH; [lia|lia|exact Z1]].
Qed.
Lemma bern_call : forall d c x, 0 <= x <= 1 -> length c = S d ->
  call (mkS (bern d) c) x = fold_right Rplus 0 (map (fun j => nth j c 0 * (pc d j * x ^ j * (1 - x) ^ (d - j))) (seq 0 (S d))).
Proof.
  intros d c x Ix L. unfold call. cbn [sbasis coeffs]. rewrite dot_bern by assumption. f_equal.
  apply map_ext_in. intros j Hj. apply in_seq in Hj. rewrite bp_closed by lia. reflexivity.
Qed.

(* how the examples show that a constraint is satisfied: the coefficients are
   named, the values are compared *)
Theorem solved_poly : forall X D c d l, polynomial X D (cexpr c) -> below_degree 250 D (cexpr c) ->
  deg_of D (cexpr c) = Some d -> length l = S d ->
  (forall x, 0 <= x <= 1 -> sval (jets X x) (cexpr c) = call (mkS (bern d) l) x) ->
  (forall v, In v l -> match clo c with None => True | Some b => b <= v end /\ v <= chi c) ->
  solved 0 X [c].
Proof.
  intros X D c d l P B G L V H c' [<-|[]].
  destruct (build_poly 0 X D (cexpr c) P B) as (o & E & K). rewrite G in K. destruct o as [r|s]; cbn in K; [contradiction|].
  exists (Spl s). split; [exact E|]. cbn [entries kept].
  assert (Q : coeffs s = l).
  { pose proof (poly_fits X D _ P) as F. destruct (build_good 0 X _ _ F E) as [[SC SZ] _].
    assert (D250 : (d <= 250)%nat) by (destruct (cexpr c); cbn [below_degree] in B; rewrite G in B; apply B).
    apply (bern_coeffs d); [exact D250|unfold sized in SZ; rewrite SZ, K; apply bern_blen|exact L|].
    intros x Ix. rewrite <- V by exact Ix. pose proof (build_close 0 X _ _ x (Rle_refl 0) F Ix E) as C. rewrite drift_0 in C.
    cbn [val] in C. apply close_0 in C. rewrite <- C. destruct s as [sb sc]. cbn in K |- *. rewrite K. reflexivity. }
  rewrite Q. exact H.
Qed.
