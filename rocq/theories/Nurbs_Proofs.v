(** Rational splines: values, quotients, products and sums. *)
From Coq Require Import Reals Lra Lia List Arith Bool ZArith.
From Verif Require Import Blossom Spline_Model Spline_Spec Spline_Proofs Spline_Proofs2 Splop_Model Splop_Spec Splop_Proofs
  Splop_Proofs2 Splop_Proofs3 Nurbs_Model Nurbs_Spec.
Import ListNotations.
Local Open Scope R_scope.

Lemma times2_length : forall u v, length u = length v -> length (times2 u v) = length u.
Proof. intros u v L. unfold times2. rewrite map_length, combine_length. lia. Qed.
Lemma dot_times2 : forall B w c, length w = length B -> length c = length B -> dot (times2 B w) c = dot B (times2 c w).
Proof.
  unfold times2. induction B as [|b B IH]; intros [|w ws] [|c cs] L1 L2; cbn in *; try discriminate; auto.
  rewrite IH by lia. ring.
Qed.
Lemma dot_over : forall u d c, dot (map (fun v => v / d) u) c = dot u c / d.
Proof. unfold Rdiv. induction u as [|a u IH]; intros d [|c cs]; cbn; try (rewrite ?IH; ring). Qed.
Lemma total_times2 : forall B w, total (times2 B w) = dot B w.
Proof. unfold times2, total. induction B as [|b B IH]; intros [|w ws]; cbn; auto. rewrite IH. reflexivity. Qed.
Lemma total_over : forall u d, total (map (fun v => v / d) u) = total u / d.
Proof. unfold Rdiv, total. induction u as [|a u IH]; intros d; cbn; [ring|rewrite IH; ring]. Qed.

Theorem ncall_ratio : forall n x, nsized n -> ncall n x = call (num n) x / call (den n) x.
Proof.
  intros n x [W C]. unfold ncall, nurbs_row, call, num, den. cbn [sbasis coeffs].
  rewrite dot_over, dot_times2; [reflexivity| |]; rewrite blen_eval; auto.
Qed.
Lemma num_sized : forall n, nsized n -> sized (num n) /\ sized (den n).
Proof.
  intros n [W C]. unfold sized, num, den. cbn [sbasis coeffs]. rewrite times2_length by congruence.
  unfold blen in *. lia.
Qed.

Lemma least : forall l, (forall w : R, In w l -> 0 < w) -> exists m, 0 < m /\ forall w, In w l -> m <= w.
Proof.
  induction l as [|a l IH]; intros P. { exists 1. split; [lra|intros w []]. }
  destruct IH as (m & M & L). { intros w I. apply P. now right. }
  exists (Rmin a m). split. { apply Rmin_glb_lt; auto. apply P. now left. }
  intros w [->|I]; [apply Rmin_l|]. pose proof (Rmin_r a m). pose proof (L w I). lra.
Qed.
Lemma greatest : forall l, exists m : R, forall w, In w l -> w <= m.
Proof.
  induction l as [|a l (m & M)]. { exists 0. intros w []. }
  exists (Rmax a m). intros w [->|I]; [apply Rmax_l|]. pose proof (Rmax_r a m). pose proof (M w I). lra.
Qed.
Theorem den_pos : forall n x, nsized n -> well_formed (nbasis n) -> in_domain (nbasis n) x ->
  (forall w, In w (weights n) -> 0 < w) -> 0 < call (den n) x.
Proof.
  intros n x S WF D P. destruct (least _ P) as (m & M & L). destruct (greatest (weights n)) as (g & G).
  destruct (num_sized n S) as [_ S2].
  pose proof (call_hull (den n) x m g WF S2 D ltac:(intros c I; split; [apply L|apply G]; exact I)). lra.
Qed.
Theorem row_one : forall n x, nsized n -> well_formed (nbasis n) -> in_domain (nbasis n) x ->
  (forall w, In w (weights n) -> 0 < w) ->
  total (nurbs_row n x) = 1 /\ forall v, In v (nurbs_row n x) -> 0 <= v <= 1.
Proof.
  intros n x S WF D P. pose proof (den_pos n x S WF D P) as Q. unfold call, den in Q. cbn [sbasis coeffs] in Q.
  assert (T : total (nurbs_row n x) = 1). { unfold nurbs_row. rewrite total_over, total_times2. field. lra. }
  assert (N : forall v, In v (nurbs_row n x) -> 0 <= v).
  { intros v I. unfold nurbs_row in I. apply in_map_iff in I. destruct I as (u & <- & I). unfold times2 in I. apply in_map_iff in I.
    destruct I as ([b w] & <- & I). cbn [fst snd]. pose proof (in_combine_l _ _ _ _ I) as I1. pose proof (in_combine_r _ _ _ _ I) as I2.
    pose proof (basis_nonneg _ _ _ WF D I1). pose proof (P _ I2).
    apply Rmult_le_pos; [nra|]. left. now apply Rinv_0_lt_compat. }
  split; auto. intros v I. split; auto. rewrite <- T. clear T. generalize dependent (nurbs_row n x).
  induction l as [|a l IH]; intros N I; [destruct I|]. cbn.
  assert (0 <= total l). { clear -N. induction l as [|b l IH]; cbn; [lra|]. pose proof (N b ltac:(cbn; auto)).
    pose proof (IH ltac:(intros v [->|I]; apply N; cbn; auto)). unfold total in *. lra. }
  unfold total in *. destruct I as [->|I]; [pose proof (N v ltac:(cbn; auto)); lra|].
  pose proof (IH ltac:(intros w J; apply N; now right) I). pose proof (N a ltac:(cbn; auto)). lra.
Qed.
Lemma dot_hull : forall u c lo hi, length u = length c -> (forall a, In a u -> 0 <= a) -> (forall e, In e c -> lo <= e <= hi) ->
  lo * total u <= dot u c <= hi * total u.
Proof.
  induction u as [|a u IH]; intros [|e c] lo hi L P Q; cbn in *; try discriminate; [lra|].
  destruct (IH c lo hi ltac:(lia) ltac:(auto) ltac:(auto)). pose proof (P a ltac:(auto)). pose proof (Q e ltac:(auto)).
  unfold total in *. split; nra.
Qed.
Theorem ncall_hull : forall n x lo hi, nsized n -> well_formed (nbasis n) -> in_domain (nbasis n) x ->
  (forall w, In w (weights n) -> 0 < w) -> (forall c, In c (ncoeffs n) -> lo <= c <= hi) -> lo <= ncall n x <= hi.
Proof.
  intros n x lo hi S WF D P H. destruct (row_one n x S WF D P) as [T N]. unfold ncall.
  assert (L : length (nurbs_row n x) = length (ncoeffs n)).
  { destruct S as [W C]. unfold nurbs_row. rewrite map_length, times2_length; rewrite blen_eval; congruence. }
  pose proof (dot_hull _ _ lo hi L ltac:(intros a I; apply N in I; tauto) H) as K. rewrite T in K. lra.
Qed.

Lemma over_spec : forall u w c, length u = length w -> over u w = Some c ->
  length c = length w /\ times2 c w = u /\ forall v, In v w -> v <> 0.
Proof.
  intros u w c L E. unfold over in E. destruct (forallb _ w) eqn:F; [|discriminate]. injection E as <-.
  assert (N : forall v, In v w -> v <> 0).
  { intros v I Z. pose proof (proj1 (forallb_forall _ _) F v I) as K. cbn in K. apply negb_true_iff, Reqb_false in K. auto. }
  repeat split; auto. { rewrite map_length, combine_length. lia. }
  clear F. unfold times2. revert w L N. induction u as [|a u IH]; intros [|v w] L N; cbn in *; try discriminate; auto.
  rewrite IH by (auto; lia). f_equal. field. auto.
Qed.
Theorem div_parts : forall tol s1 s2 n, div_spline tol s1 s2 = Some n ->
  nbasis n = basis_add (sbasis s1) (sbasis s2) /\ nsized n /\ (forall w, In w (weights n) -> w <> 0) /\
  exists T1 T2, transform_basis tol (nbasis n) (sbasis s1) = Some T1 /\ transform_basis tol (nbasis n) (sbasis s2) = Some T2 /\
    num n = mkS (nbasis n) (cols_dot (blen (nbasis n)) T1 (coeffs s1)) /\
    den n = mkS (nbasis n) (cols_dot (blen (nbasis n)) T2 (coeffs s2)).
Proof.
  intros tol s1 s2 n E. unfold div_spline in E. set (b := basis_add _ _) in *.
  destruct (transform_basis tol b (sbasis s2)) as [T2|] eqn:E2; [|discriminate].
  destruct (transform_basis tol b (sbasis s1)) as [T1|] eqn:E1; [|discriminate].
  destruct (over _ _) as [c|] eqn:EO; [|discriminate]. injection E as <-. cbn [nbasis weights ncoeffs].
  apply over_spec in EO; [|rewrite !cols_dot_length; reflexivity]. destruct EO as (LC & TC & NZ).
  rewrite cols_dot_length in LC.
  repeat split; auto. { apply cols_dot_length. }
  exists T1, T2. unfold num, den. cbn [nbasis weights ncoeffs]. rewrite TC. auto.
Qed.
Theorem div_close : forall tol s1 s2 n lo hi x, 0 <= tol ->
  clamped_on (sbasis s1) lo hi -> clamped_on (sbasis s2) lo hi -> sized s1 -> sized s2 ->
  div_spline tol s1 s2 = Some n -> lo <= x <= hi ->
  exists p q, ncall n x = p / q /\ Rabs (p - call s1 x) <= tol * size_of (coeffs s1) /\ Rabs (q - call s2 x) <= tol * size_of (coeffs s2).
Proof.
  intros tol s1 s2 n lo hi x T C1 C2 S1 S2 E X. destruct (div_parts _ _ _ _ E) as (B & SZ & _ & T1 & T2 & E1 & E2 & N & D).
  exists (call (num n) x), (call (den n) x). split; [now apply ncall_ratio|].
  assert (M1 : (degree (sbasis s1) <= Nat.max (degree (sbasis s1)) (degree (sbasis s2)))%nat) by lia.
  assert (M2 : (degree (sbasis s2) <= Nat.max (degree (sbasis s1)) (degree (sbasis s2)))%nat) by lia.
  rewrite N, D. unfold call at 1 3. cbn [sbasis coeffs]. rewrite B in *. unfold basis_add in *.
  split; apply (transform_call tol _ _ _ lo hi); auto; rewrite ?combine_degree; try lia; try (apply combine_clamped; auto);
    [apply combine_keeps_l|apply combine_keeps_r]; auto.
Qed.
Lemma div_exact_parts : forall s1 s2 n lo hi x,
  clamped_on (sbasis s1) lo hi -> clamped_on (sbasis s2) lo hi -> sized s1 -> sized s2 ->
  div_spline 0 s1 s2 = Some n -> lo <= x <= hi -> call (num n) x = call s1 x /\ call (den n) x = call s2 x.
Proof.
  intros s1 s2 n lo hi x C1 C2 S1 S2 E X. destruct (div_parts _ _ _ _ E) as (B & SZ & _ & T1 & T2 & E1 & E2 & N & D).
  assert (M1 : (degree (sbasis s1) <= Nat.max (degree (sbasis s1)) (degree (sbasis s2)))%nat) by lia.
  assert (M2 : (degree (sbasis s2) <= Nat.max (degree (sbasis s1)) (degree (sbasis s2)))%nat) by lia.
  rewrite N, D. unfold call at 1 3. cbn [sbasis coeffs]. rewrite B in *. unfold basis_add in *.
  split; apply close_0; match goal with |- context [coeffs ?s] => rewrite <- (Rmult_0_l (size_of (coeffs s))) end;
    apply (transform_call 0 _ _ _ lo hi); auto; rewrite ?combine_degree; try lia; try lra; try (apply combine_clamped; auto);
    [apply combine_keeps_l|apply combine_keeps_r]; auto.
Qed.
Theorem div_exact : forall s1 s2 n lo hi x,
  clamped_on (sbasis s1) lo hi -> clamped_on (sbasis s2) lo hi -> sized s1 -> sized s2 ->
  div_spline 0 s1 s2 = Some n -> lo <= x <= hi -> ncall n x = call s1 x / call s2 x.
Proof.
  intros s1 s2 n lo hi x C1 C2 S1 S2 E X. destruct (div_exact_parts _ _ _ _ _ _ C1 C2 S1 S2 E X) as [A B].
  destruct (div_parts _ _ _ _ E) as (_ & SZ & _). rewrite ncall_ratio by exact SZ. rewrite A, B. reflexivity.
Qed.
Theorem div_zero_weight : forall tol s1 s2 T, let b := basis_add (sbasis s1) (sbasis s2) in
  transform_basis tol b (sbasis s2) = Some T -> In 0 (cols_dot (blen b) T (coeffs s2)) -> div_spline tol s1 s2 = None.
Proof.
  intros tol s1 s2 T b E I. unfold div_spline. fold b. rewrite E. destruct (transform_basis tol b (sbasis s1)); auto.
  unfold over. replace (forallb _ _) with false; auto. symmetry. apply not_true_is_false. intros F.
  pose proof (proj1 (forallb_forall _ _) F _ I) as K. cbn in K. apply negb_true_iff, Reqb_false in K. auto.
Qed.

(** products and sums *)
Theorem nmul_exact : forall n s n' lo hi x, nsized n -> clamped_on (nbasis n) lo hi -> clamped_on (sbasis s) lo hi -> sized s ->
  nmul 0 n s = Some n' -> lo <= x <= hi -> call (den n) x <> 0 -> ncall n' x = ncall n x * call s x.
Proof.
  intros n s n' lo hi x SZ CN CS SS E X Z. unfold nmul in E. destruct (mul_spline 0 (num n) s) as [m|] eqn:EM; [|discriminate].
  destruct (num_sized n SZ) as [N1 N2]. assert (CM := mul_clamped 0 (num n) s m lo hi CN CS EM).
  destruct (mul_spline_basis _ _ _ _ EM) as [_ SM].
  rewrite (div_exact m (den n) n' lo hi x); auto. rewrite (mul_exact (num n) s m lo hi x CN CS N1 SS EM).
  rewrite ncall_ratio by exact SZ. field. exact Z.
Qed.
Theorem nmul_num_exact : forall n a n' lo hi x, nsized n -> clamped_on (nbasis n) lo hi ->
  nmul_num 0 n a = Some n' -> lo <= x <= hi -> ncall n' x = a * ncall n x.
Proof.
  intros n a n' lo hi x SZ CN E X. unfold nmul_num in E. destruct (num_sized n SZ) as [N1 N2].
  assert (SM : sized (mul_num (num n) a)). { unfold sized, mul_num in *. cbn [sbasis coeffs] in *. now rewrite map_length. }
  rewrite (div_exact (mul_num (num n) a) (den n) n' lo hi x); auto.
  rewrite mul_num_call, ncall_ratio by exact SZ. unfold Rdiv. ring.
Qed.
Theorem nadd_exact : forall n1 n2 n lo hi x, nsized n1 -> nsized n2 -> clamped_on (nbasis n1) lo hi -> clamped_on (nbasis n2) lo hi ->
  nadd 0 n1 n2 = Some n -> lo <= x <= hi -> call (den n1) x <> 0 -> call (den n2) x <> 0 -> ncall n x = ncall n1 x + ncall n2 x.
Proof.
  intros n1 n2 n lo hi x S1 S2 C1 C2 E X Z1 Z2. unfold nadd in E.
  destruct (num_sized n1 S1) as [A1 B1]. destruct (num_sized n2 S2) as [A2 B2].
  destruct (mul_spline 0 (num n1) (den n2)) as [p|] eqn:EP; [|discriminate].
  destruct (mul_spline 0 (den n1) (num n2)) as [q|] eqn:EQ; [|discriminate].
  destruct (mul_spline 0 (den n1) (den n2)) as [d|] eqn:ED; [|discriminate].
  destruct (add_spline 0 p q) as [s|] eqn:ES; [|discriminate].
  destruct (mul_spline_basis _ _ _ _ EP) as [_ SP]. destruct (mul_spline_basis _ _ _ _ EQ) as [_ SQ]. destruct (mul_spline_basis _ _ _ _ ED) as [_ SD].
  assert (CP := mul_clamped 0 (num n1) (den n2) p lo hi C1 C2 EP). assert (CQ := mul_clamped 0 (den n1) (num n2) q lo hi C1 C2 EQ).
  assert (CD := mul_clamped 0 (den n1) (den n2) d lo hi C1 C2 ED). assert (CS := add_clamped 0 p q s lo hi CP CQ ES).
  destruct (add_spline_basis _ _ _ _ ES) as [_ SS].
  rewrite (div_exact s d n lo hi x); auto. rewrite (add_exact p q s lo hi x CP CQ SP SQ ES).
  rewrite (mul_exact (num n1) (den n2) p lo hi x C1 C2 A1 B2 EP), (mul_exact (den n1) (num n2) q lo hi x C1 C2 B1 A2 EQ).
  rewrite (mul_exact (den n1) (den n2) d lo hi x C1 C2 B1 B2 ED), !ncall_ratio by auto. field. auto.
Qed.
