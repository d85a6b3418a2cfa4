(** Derivatives of rational splines. *)
From Coq Require Import Reals Lra Lia List Arith Bool ZArith.
From Verif Require Import Blossom Spline_Model Spline_Spec Spline_Proofs Spline_Proofs2 Spline_Proofs3 Splop_Model Splop_Spec Span_Proofs Span_Proofs2 Splop_Proofs
  Splop_Proofs2 Splop_Proofs3 Bang_Proofs Trip_Proofs Nurbs_Model Nurbs_Spec Nurbs_Proofs.
Import ListNotations.
Local Open Scope R_scope.

Lemma no_inner_mult : forall b lo hi t, no_inner b lo hi -> lo < t < hi -> mult b t = 0%nat.
Proof. intros b lo hi t N T. unfold mult. apply count_occ_not_In. intros I. now apply (N t I). Qed.
Lemma in_trim : forall t l, In t (trim l) -> In t l.
Proof.
  intros t l I. unfold trim in I. destruct l as [|a l]; cbn in *; auto. right. revert I.
  induction l as [|b l IH]; cbn; auto. destruct l; cbn in *; tauto.
Qed.
Lemma keeps_free : forall b b1 lo hi r, no_inner b1 lo hi -> keeps_knots b b1 lo hi r.
Proof. intros b b1 lo hi r N t T M. rewrite (no_inner_mult b1 lo hi t N T) in M. lia. Qed.
Lemma combine_no_inner : forall b1 b2 deg lo hi, (degree b1 <= deg)%nat -> (degree b2 <= deg)%nat ->
  no_inner b1 lo hi -> no_inner b2 lo hi -> no_inner (combine_bases b1 b2 deg) lo hi.
Proof. intros b1 b2 deg lo hi D1 D2 N1 N2 t I. apply combine_in in I; auto. destruct I as [I|I]; auto. Qed.

Lemma deriv1_clamped_on : forall s lo hi, clamped_on (sbasis s) lo hi -> sized s -> (1 <= degree (sbasis s))%nat ->
  clamped_on (sbasis (derivative s 1)) lo hi /\ sized (derivative s 1).
Proof.
  intros s lo hi C S D. assert (C' := C). destruct C' as (WF & CL & _).
  destruct (deriv_inv 1 s D WF S) as (A & B & E & L & R0 & _).
  assert (CD := deriv1_clamped s D WF CL). split; auto. split; [exact A|]. split; [exact CD|].
  destruct (clamped_dom _ _ _ C) as [DL DR]. destruct CD as (C1 & C2 & _). unfold dom_left, dom_right in *. split; lra.
Qed.

(** the derivative when the basis has no inner knots: the quotient rule *)
Theorem nderiv_parts : forall n n' lo hi, nsized n -> clamped_on (nbasis n) lo hi -> (1 <= degree (nbasis n))%nat ->
  no_inner (nbasis n) lo hi -> nderiv 0 n = Some n' ->
  nsized n' /\ clamped_on (nbasis n') lo hi /\ no_inner (nbasis n') lo hi /\ degree (nbasis n') = (2 * degree (nbasis n))%nat /\
  forall x, lo <= x <= hi ->
    call (num n') x = call (derivative (num n) 1) x * call (den n) x - call (num n) x * call (derivative (den n) 1) x /\
    call (den n') x = call (den n) x ^ 2.
Proof.
  intros n n' lo hi SZ C D NI E. unfold nderiv in E.
  destruct (num_sized n SZ) as [SN SD].
  destruct (pow_spline 0 (den n) 2) as [d2|] eqn:E2; [|discriminate].
  set (b := nbasis n) in *. set (db := mkB (slice_oo 1 (knots b)) (degree b - 1)) in *.
  destruct (transform 0 (sbasis d2) _ _) as [T|] eqn:ET; [|discriminate].
  destruct (over _ _) as [c|] eqn:EO; [|discriminate]. injection E as <-. cbn [nbasis weights ncoeffs].
  assert (EM : mul_spline 0 (den n) (den n) = Some d2).
  { change (pow_spline 0 (den n) 2) with (match mul_spline 0 (den n) (den n) with None => None | Some a => Some a end) in E2.
    destruct (mul_spline 0 (den n) (den n)); congruence. }
  assert (C2 := mul_clamped 0 (den n) (den n) d2 lo hi C C EM). destruct (mul_spline_basis _ _ _ _ EM) as [B2 S2]. cbn [den sbasis] in B2. fold b in B2.
  assert (BD : sbasis (derivative (num n) 1) = db) by reflexivity.
  assert (BD' : sbasis (derivative (den n) 1) = db) by reflexivity.
  destruct (deriv1_clamped_on (num n) lo hi C SN D) as [CN' SN'].
  destruct (deriv1_clamped_on (den n) lo hi C SD D) as [CD' SD'].
  assert (DD : degree (sbasis d2) = (degree b + degree b)%nat) by (rewrite B2; apply combine_degree).
  assert (NID : no_inner db lo hi).
  { intros t I. apply NI. change (knots db) with (knots (sbasis (derivative (num n) 1))) in I. rewrite deriv1_knots in I. now apply in_trim in I. }
  assert (EX : length T = length (pairs b db) /\ (forall col, In col T -> length col = blen (sbasis d2)) /\
     forall x k, lo <= x <= hi -> (k < length (pairs b db))%nat ->
       Rabs (dot (eval_basis (sbasis d2) x) (nth k T []) -
             (fun k x => nth (fst (nth k (pairs b db) (0%nat, 0%nat))) (eval_basis b x) 0 * nth (snd (nth k (pairs b db) (0%nat, 0%nat))) (eval_basis db x) 0) k x) <= 0).
  { eapply (transform_all 0 (sbasis d2) _ _ T lo hi); [lra|exact C2|exact ET| |].
    - intros i k I K. unfold product_row. rewrite (nth_map_d _ _ _ _ (0%nat, 0%nat)) by exact K. reflexivity.
    - intros k K. cbv beta. destruct (nth k (pairs b db) (0%nat, 0%nat)) as [i j] eqn:P. cbn [fst snd].
      assert (IJ := pairs_in b db (i, j) ltac:(rewrite <- P; now apply nth_In)). cbn [fst snd] in IJ. destruct IJ as [I J].
      set (u := mkS b (unitv (blen b) i)). set (v := mkS db (unitv (blen db) j)).
      assert (Su : sized u) by (unfold sized, u; cbn [sbasis coeffs]; rewrite unitv_length; reflexivity).
      assert (Sv : sized v) by (unfold sized, v; cbn [sbasis coeffs]; rewrite unitv_length; reflexivity).
      assert (Cm : clamped_on (basis_mul b db) lo hi) by (apply combine_clamped; auto; lia).
      assert (Dm : degree (basis_mul b db) = (degree b + degree db)%nat) by (unfold basis_mul; apply combine_degree).
      destruct (clamped_two (basis_mul b db) u v lo hi Cm C CN' Su Sv Dm (keeps_free _ _ _ _ _ NI) (keeps_free _ _ _ _ _ NID)) as (w & LW & HW).
      destruct (clamped_one (sbasis d2) (mkS (basis_mul b db) w) lo hi) as (z & LZ & HZ); auto.
      { cbn [sbasis]. unfold basis_mul. rewrite combine_degree, DD. cbn. lia. }
      { cbn [sbasis]. apply keeps_free. apply combine_no_inner; auto; lia. }
      exists z. split; auto. intros x X. rewrite HZ by exact X. unfold call. cbn [sbasis coeffs]. rewrite HW by exact X.
      unfold u, v. rewrite !call_unit by auto. reflexivity. }
  destruct EX as (LT & LC & HT).
  apply over_spec in EO. 2:{ rewrite cols_dot_length. exact (eq_sym S2). } destruct EO as (LCC & TC & NZ).
  split. { split; cbn [weights ncoeffs nbasis]; [exact S2|]. rewrite LCC. exact S2. }
  split; [exact C2|]. split. { rewrite B2. apply combine_no_inner; auto; lia. } split. { rewrite DD. lia. }
  intros x X. unfold num at 1, den at 3. cbn [nbasis weights ncoeffs]. rewrite TC. split.
  - unfold call at 1. cbn [sbasis coeffs]. rewrite dot_cols by exact LC.
    assert (ME : map (dot (eval_basis (sbasis d2) x)) T
       = map (fun p => nth (fst p) (eval_basis b x) 0 * nth (snd p) (eval_basis db x) 0) (pairs b db)).
    { apply (nth_ext _ _ 0 0); [rewrite !map_length; exact LT|]. intros k K. rewrite map_length in K.
      rewrite (nth_map_d _ _ _ _ []) by exact K. rewrite (nth_map_d _ _ _ _ (0%nat, 0%nat)) by lia.
      apply close_0. apply (HT x k X). lia. }
    rewrite ME, dot_total_pairs.
    pose proof (pairs_sum (den n) (derivative (num n) 1) lo hi x C CN' SD SN' X) as P1.
    pose proof (pairs_sum (num n) (derivative (den n) 1) lo hi x C CD' SN SD' X) as P2.
    rewrite BD in P1. rewrite BD' in P2. cbn [den num sbasis] in P1, P2. fold b in P1, P2.
    rewrite <- P2. rewrite (Rmult_comm (call (derivative (num n) 1) x)), <- P1.
    clear. generalize (pairs b db). induction l as [|p l IH]; cbn [map total fold_right]; [lra|].
    unfold total in *. rewrite IH. ring.
  - replace (mkS (sbasis d2) (coeffs d2)) with d2 by (destruct d2; reflexivity).
    rewrite (mul_exact (den n) (den n) d2 lo hi x C C SD SD EM). ring.
Qed.
Theorem nderiv_correct : forall n n' lo hi x, nsized n -> clamped_on (nbasis n) lo hi -> (1 <= degree (nbasis n))%nat ->
  no_inner (nbasis n) lo hi -> nderiv 0 n = Some n' -> lo < x < hi -> call (den n) x <> 0 ->
  derivable_pt_lim (ncall n) x (ncall n' x).
Proof.
  intros n n' lo hi x SZ C D NI E X Z. destruct (nderiv_parts n n' lo hi SZ C D NI E) as (SZ' & _ & _ & _ & H).
  destruct (H x ltac:(lra)) as [HN HD]. rewrite ncall_ratio by exact SZ'. rewrite HN, HD.
  destruct (num_sized n SZ) as [SN SD]. assert (C' := C). destruct C' as (WF & _). destruct (clamped_dom _ _ _ C) as [DL DR].
  assert (M : mult_le (nbasis n) x (degree (nbasis n) - 1)).
  { apply mult_le_cnt; [apply WF|]. pose proof (no_inner_mult _ _ _ x NI X) as M0. unfold mult in M0. unfold cnt. lia. }
  pose proof (derivative1_correct (num n) x WF SN D ltac:(cbn [num sbasis]; lra) M) as P.
  pose proof (derivative1_correct (den n) x WF SD D ltac:(cbn [den sbasis]; lra) M) as Q.
  pose proof (derivable_pt_lim_div _ _ x _ _ P Q Z) as K.
  intros eps HE. destruct (K eps HE) as (dl & HDl). exists dl. intros h H0 H1. specialize (HDl h H0 H1).
  rewrite !ncall_ratio by exact SZ. unfold div_fct, Rsqr in HDl.
  replace (call (den n) x ^ 2) with (call (den n) x * call (den n) x) by ring.
  rewrite (Rmult_comm (call (num n) x)). exact HDl.
Qed.
(** any order *)
Theorem nderivs_correct : forall o n n' lo hi, nsized n -> clamped_on (nbasis n) lo hi -> (1 <= degree (nbasis n))%nat ->
  no_inner (nbasis n) lo hi -> (forall x, lo <= x <= hi -> call (den n) x <> 0) -> nderivs 0 n o = Some n' ->
  nth_deriv o (ncall n) lo hi (ncall n').
Proof.
  induction o as [|o IH]; intros n n' lo hi SZ C D NI Z E; [discriminate|]. cbn [nth_deriv].
  assert (K : exists m, nderiv 0 n = Some m /\ match o with O => Some m = Some n' | S _ => nderivs 0 m o = Some n' end).
  { cbn [nderivs] in E. destruct o. { exists n'. auto. } destruct (nderiv 0 n) as [m|]; [|discriminate]. exists m. auto. }
  destruct K as (m & EM & K). destruct (nderiv_parts n m lo hi SZ C D NI EM) as (SZ' & C' & NI' & D' & H).
  exists (ncall m). split. { intros x X. apply (nderiv_correct n m lo hi); auto. apply Z. lra. }
  destruct o as [|o]. { injection K as ->. cbn. reflexivity. }
  apply IH; auto. { lia. } intros x X. destruct (H x X) as [_ ->]. pose proof (Z x X). nra.
Qed.
