(** Combined bases (C08), powers (C09), basis transformation and knot
    insertion (C82), sums and products of splines on different bases (C83). *)
From Coq Require Import Reals List Arith Lra Lia ZArith.
From Verif Require Import Spline_Model Spline_Spec Spline_Proofs Splop_Model Splop_Spec Splop_Proofs
  Splop_Proofs2 Splop_Proofs3 Splop_Proofs4 Obst_Model.
Import ListNotations.
Local Open Scope R_scope.

(* knots and degree of basis1 + basis2 *)
Theorem C08_sum_knots : forall b1 b2,
  let b := basis_add b1 b2 in
  nondecreasing (knots b) /\ degree b = Nat.max (degree b1) (degree b2) /\
  forall t, In t (knots b) <-> In t (knots b1) \/ In t (knots b2).
Proof. exact add_knots. Qed.
Example C08_sum_knots_ex : In 1 (knots (basis_add lbasis obasis)) /\ ~ In 2 (knots (basis_add lbasis obasis)).
Proof.
  split; [apply C08_sum_knots; left; simpl; tauto|]. intros H. apply C08_sum_knots in H. simpl in H. intuition lra.
Qed.
Print Assumptions C08_sum_knots.

(* knots and degree of basis1 * basis2 *)
Theorem C08_product_knots : forall b1 b2,
  let b := basis_mul b1 b2 in
  nondecreasing (knots b) /\ degree b = (degree b1 + degree b2)%nat /\
  forall t, In t (knots b) <-> In t (knots b1) \/ In t (knots b2).
Proof. exact mul_knots. Qed.
Example C08_product_knots_ex : degree (basis_mul lbasis obasis) = 3%nat.
Proof. apply C08_product_knots. Qed.
Print Assumptions C08_product_knots.

(* degree minus multiplicity is the smallest one among the operands that contain the knot *)
Theorem C08_sum_multiplicity : forall b1 b2 t,
  let deg := Nat.max (degree b1) (degree b2) in
  let smooth b := (Z.of_nat (degree b) - Z.of_nat (mult b t))%Z in
  let m := Z.of_nat (mult (basis_add b1 b2) t) in
  ((0 < mult b1 t)%nat -> (0 < mult b2 t)%nat -> m = (Z.of_nat deg - Z.min (smooth b1) (smooth b2))%Z) /\
  ((0 < mult b1 t)%nat -> mult b2 t = 0%nat -> m = (Z.of_nat deg - smooth b1)%Z) /\
  (mult b1 t = 0%nat -> (0 < mult b2 t)%nat -> m = (Z.of_nat deg - smooth b2)%Z) /\
  (mult b1 t = 0%nat -> mult b2 t = 0%nat -> m = 0%Z).
Proof. exact add_smooth. Qed.
Example C08_sum_multiplicity_ex : (mult lbasis 1 = 2 /\ mult obasis 1 = 3)%nat.
Proof.
  unfold mult, lbasis, obasis. simpl. destruct (Req_EM_T 0 1); [lra|]. destruct (Req_EM_T 1 1); [|lra]. split; reflexivity.
Qed.
Print Assumptions C08_sum_multiplicity.

Theorem C08_product_multiplicity : forall b1 b2 t,
  let deg := (degree b1 + degree b2)%nat in
  let smooth b := (Z.of_nat (degree b) - Z.of_nat (mult b t))%Z in
  let m := Z.of_nat (mult (basis_mul b1 b2) t) in
  ((0 < mult b1 t)%nat -> (0 < mult b2 t)%nat -> m = (Z.of_nat deg - Z.min (smooth b1) (smooth b2))%Z) /\
  ((0 < mult b1 t)%nat -> mult b2 t = 0%nat -> m = (Z.of_nat deg - smooth b1)%Z) /\
  (mult b1 t = 0%nat -> (0 < mult b2 t)%nat -> m = (Z.of_nat deg - smooth b2)%Z) /\
  (mult b1 t = 0%nat -> mult b2 t = 0%nat -> m = 0%Z).
Proof. exact mul_smooth. Qed.
Example C08_product_multiplicity_ex : mult (basis_mul lbasis lbasis) 1 = 3%nat.
Proof. rewrite mul_line_basis. unfold mult, obasis. simpl. destruct (Req_EM_T 0 1); [lra|]. destruct (Req_EM_T 1 1); [|lra]. reflexivity. Qed.
Print Assumptions C08_product_multiplicity.

(* clamped operands on the same interval give a clamped result on that interval *)
Theorem C08_clamped : forall b1 b2 deg lo hi, (degree b1 <= deg)%nat -> (degree b2 <= deg)%nat ->
  clamped_on b1 lo hi -> clamped_on b2 lo hi -> clamped_on (combine_bases b1 b2 deg) lo hi.
Proof. exact combine_clamped. Qed.
Example C08_clamped_ex : clamped_on lbasis 0 1 /\ clamped_on obasis 0 1.
Proof. split; [apply lbasis_clamped|apply obasis_clamped]. Qed.
Print Assumptions C08_clamped.

(* basis ** n for n >= 1 *)
Theorem C08_power_knots : forall b n t, (1 <= n)%nat ->
  (In t (knots (basis_pow b n)) <-> In t (knots b)).
Proof. exact pow_knots. Qed.
Example C08_power_knots_ex : degree (basis_pow obasis 3) = 6%nat.
Proof. reflexivity. Qed.
Print Assumptions C08_power_knots.

(* basis ** 0 loses inner knots *)
Theorem C08_power_knots_refuted : exists b t, In t (knots b) /\ ~ In t (knots (basis_pow b 0)).
Proof. exact pow_knots_refuted. Qed.
Print Assumptions C08_power_knots_refuted.

(* s ** n for n >= 1, all points (also outside the domain), when no entry of a transformation is rounded to zero *)
Theorem C09_power : forall s n r lo hi x, (1 <= n)%Z ->
  clamped_on (sbasis s) lo hi -> sized s ->
  pow_spline 0 s n = Some r -> call r x = call s x ^ Z.to_nat n.
Proof. exact pow_exact. Qed.
Example C09_power_ex : exists r, pow_spline 0 lline 2 = Some r /\ call r (1/2) = (1/2) ^ 2.
Proof.
  destruct (square_succeeds 0 0 1) as [r H]. exists r. assert (E : pow_spline 0 lline 2 = Some r).
  { unfold pow_spline. simpl. unfold lline. rewrite H. reflexivity. }
  split; [exact E|]. rewrite (C09_power lline 2 r 0 1 (1/2)); [|lia|apply lbasis_clamped|reflexivity|exact E].
  unfold lline. rewrite line_call by lra. simpl. lra.
Qed.
Print Assumptions C09_power.

(* the degree is multiplied by n *)
Theorem C09_power_degree : forall tol s n r, (1 <= n)%Z -> pow_spline tol s n = Some r ->
  degree (sbasis r) = (Z.to_nat n * degree (sbasis s))%nat.
Proof. exact pow_basis. Qed.
Example C09_power_degree_ex : exists r, pow_spline code_tol lline 2 = Some r /\ degree (sbasis r) = 2%nat.
Proof.
  destruct (square_succeeds code_tol 0 1) as [r H]. exists r. assert (E : pow_spline code_tol lline 2 = Some r).
  { unfold pow_spline. simpl. unfold lline. rewrite H. reflexivity. }
  split; [exact E|]. rewrite (C09_power_degree code_tol lline 2 r); [reflexivity|lia|exact E].
Qed.
Print Assumptions C09_power_degree.

(* s ** 0 is s *)
Theorem C09_power_zero_refuted : exists s x, clamped_on (sbasis s) 0 1 /\ sized s /\ 0 <= x <= 1 /\
  exists r, pow_spline code_tol s 0 = Some r /\ call r x <> call s x ^ 0.
Proof. exact pow_zero_refuted. Qed.
Print Assumptions C09_power_zero_refuted.

(* the elimination returns the one and only solution *)
Theorem C82_solver : forall n rows x, (forall r, In r rows -> length (fst r) = n) ->
  gsolve n rows = Some x ->
  length x = n /\ forall y, length y = n -> (Forall (holds_row y) rows <-> y = x).
Proof. exact gsolve_spec. Qed.
Example C82_solver_ex : exists x, gsolve 1 [([2], 6)] = Some x /\ x = [3].
Proof.
  destruct (gsolve_total 1 [([2], 6)]) as [x H]; [reflexivity|intros r [<-|[]]; reflexivity| |].
  - intros [|y [|z q]] L Z; try discriminate. specialize (Z _ (or_introl eq_refl)). simpl in Z.
    simpl. f_equal. lra.
  - exists x. split; [exact H|]. symmetry. apply (proj2 (C82_solver 1 [([2], 6)] x ltac:(intros r [<-|[]]; reflexivity) H) [3] eq_refl).
    constructor; [unfold holds_row; simpl; lra|constructor].
Qed.
Print Assumptions C82_solver.

(* and succeeds on every regular square system *)
Theorem C82_solver_succeeds : forall n rows, length rows = n ->
  (forall r, In r rows -> length (fst r) = n) ->
  only_zero n (map fst rows) -> exists x, gsolve n rows = Some x.
Proof. exact gsolve_total. Qed.
Example C82_solver_succeeds_ex : exists x, gsolve 2 [([0; 1], 5); ([2; 1], 6)] = Some x.
Proof.
  apply C82_solver_succeeds; [reflexivity|intros r [<-|[<-|[]]]; reflexivity|].
  intros [|y [|z [|? ?]]] L Z; try discriminate.
  assert (Z1 := Z _ (or_introl eq_refl)). assert (Z2 := Z _ (or_intror (or_introl eq_refl))).
  simpl in *. repeat f_equal; lra.
Qed.
Print Assumptions C82_solver_succeeds.

(* self(x).T = other(x) up to the rounding of entries below TOL, for every x and every pair of bases where self has the knots of other with the raised multiplicity *)
Theorem C82_transform : forall tol b b1 T lo hi, 0 <= tol ->
  clamped_on b lo hi -> clamped_on b1 lo hi -> (degree b1 <= degree b)%nat ->
  keeps_knots b b1 lo hi (degree b - degree b1) ->
  transform_basis tol b b1 = Some T ->
  length T = blen b1 /\ (forall col, In col T -> length col = blen b) /\
  forall x c, lo <= x <= hi -> (c < blen b1)%nat ->
    Rabs (dot (eval_basis b x) (nth c T []) - nth c (eval_basis b1 x) 0) <= tol.
Proof. exact transform_basis_close. Qed.
Example C82_transform_ex : exists T, transform_basis code_tol obasis lbasis = Some T /\
  Rabs (dot (eval_basis obasis (1/3)) (nth 1 T []) - nth 1 (eval_basis lbasis (1/3)) 0) <= code_tol.
Proof.
  destruct (transform_total code_tol obasis (fun i => eval_basis lbasis (grid_pt obasis i)) (blen lbasis) obasis_regular) as [T H].
  exists T. split; [exact H|].
  apply (C82_transform code_tol obasis lbasis T 0 1); auto; try lra; try (simpl; lia).
  - unfold code_tol. left. apply Rinv_0_lt_compat. apply pow_lt. lra.
  - apply obasis_clamped.
  - apply lbasis_clamped.
  - intros t Ht M. exfalso. unfold mult, lbasis in M. simpl in M.
    destruct (Req_EM_T 0 t); [lra|]. destruct (Req_EM_T 1 t); [lra|]. lia.
Qed.
Print Assumptions C82_transform.

(* the transformation is found as soon as the collocation matrix is regular *)
Theorem C82_transform_exists : forall tol b other w,
  only_zero (blen b) (colloc b) -> exists T, transform tol b other w = Some T.
Proof. exact transform_total. Qed.
Example C82_transform_exists_ex : only_zero (blen obasis) (colloc obasis).
Proof. exact obasis_regular. Qed.
Print Assumptions C82_transform_exists.

(* insert_knots keeps the curve *)
Theorem C82_insert_knots : forall tol s ts s' lo hi x, 0 <= tol ->
  clamped_on (sbasis s) lo hi -> sized s -> (forall t, In t ts -> lo <= t <= hi) ->
  insert_knots tol s ts = Some s' ->
  Rabs (call s' x - call s x) <= tol * size_of (coeffs s).
Proof. exact insert_knots_close. Qed.
Example C82_insert_knots_ex : forall t, In t [1/2; 3/4] -> 0 <= t <= 1.
Proof. intros t [<-|[<-|[]]]; lra. Qed.
Print Assumptions C82_insert_knots.

Theorem C82_insert_knots_basis : forall b ts lo hi, clamped_on b lo hi ->
  (forall t, In t ts -> lo <= t <= hi) -> clamped_on (insert_knots_basis b ts) lo hi.
Proof. exact insert_knots_clamped. Qed.
Example C82_insert_knots_basis_ex : clamped_on (insert_knots_basis lbasis [1/2]) 0 1.
Proof. apply C82_insert_knots_basis; [apply lbasis_clamped|]. intros t [<-|[]]; lra. Qed.
Print Assumptions C82_insert_knots_basis.

(* the sum of splines on different bases, every x, up to the rounding of entries below TOL *)
Theorem C83_sum : forall tol s1 s2 s lo hi x, 0 <= tol ->
  clamped_on (sbasis s1) lo hi -> clamped_on (sbasis s2) lo hi -> sized s1 -> sized s2 ->
  add_spline tol s1 s2 = Some s ->
  Rabs (call s x - (call s1 x + call s2 x)) <= tol * (size_of (coeffs s1) + size_of (coeffs s2)).
Proof. exact add_close. Qed.
Example C83_sum_ex : exists s, add_spline code_tol (mkS obasis [1; 2; 3]) (mkS lbasis [5; 7]) = Some s /\
  forall x, Rabs (call s x - (call (mkS obasis [1; 2; 3]) x + call (mkS lbasis [5; 7]) x)) <= code_tol * (6 + 12).
Proof.
  destruct (add_mixed_succeeds code_tol [1; 2; 3] [5; 7]) as [s H]. exists s. split; [exact H|]. intros x.
  replace 6 with (size_of [1; 2; 3]) by (simpl; rewrite !Rabs_right by lra; lra).
  replace 12 with (size_of [5; 7]) by (simpl; rewrite !Rabs_right by lra; lra).
  apply (C83_sum code_tol (mkS obasis [1; 2; 3]) (mkS lbasis [5; 7]) s 0 1); auto.
  - unfold code_tol. left. apply Rinv_0_lt_compat. apply pow_lt. lra.
  - apply obasis_clamped.
  - apply lbasis_clamped.
  - reflexivity.
  - reflexivity.
Qed.
Print Assumptions C83_sum.

(* exactly, when no entry is rounded *)
Theorem C83_sum_exact : forall s1 s2 s lo hi x,
  clamped_on (sbasis s1) lo hi -> clamped_on (sbasis s2) lo hi -> sized s1 -> sized s2 ->
  add_spline 0 s1 s2 = Some s -> call s x = call s1 x + call s2 x.
Proof. exact add_exact. Qed.
Example C83_sum_exact_ex : exists s, add_spline 0 (mkS obasis [1; 2; 3]) (mkS lbasis [5; 7]) = Some s /\
  forall x, call s x = call (mkS obasis [1; 2; 3]) x + call (mkS lbasis [5; 7]) x.
Proof.
  destruct (add_mixed_succeeds 0 [1; 2; 3] [5; 7]) as [s H]. exists s. split; [exact H|]. intros x.
  apply (C83_sum_exact (mkS obasis [1; 2; 3]) (mkS lbasis [5; 7]) s 0 1); auto; try reflexivity.
  - apply obasis_clamped.
  - apply lbasis_clamped.
Qed.
Print Assumptions C83_sum_exact.

Theorem C83_difference : forall tol s1 s2 s lo hi x, 0 <= tol ->
  clamped_on (sbasis s1) lo hi -> clamped_on (sbasis s2) lo hi -> sized s1 -> sized s2 ->
  sub_spline tol s1 s2 = Some s ->
  Rabs (call s x - (call s1 x - call s2 x)) <= tol * (size_of (coeffs s1) + size_of (coeffs s2)).
Proof. exact sub_close. Qed.
Example C83_difference_ex : exists s, sub_spline code_tol (mkS obasis [1; 2; 3]) (mkS lbasis [5; 7]) = Some s.
Proof. apply (add_mixed_succeeds code_tol [1; 2; 3] [-5; -7]). Qed.
Print Assumptions C83_difference.

(* the product, every x *)
Theorem C83_product : forall tol s1 s2 s lo hi x, 0 <= tol ->
  clamped_on (sbasis s1) lo hi -> clamped_on (sbasis s2) lo hi -> sized s1 -> sized s2 ->
  mul_spline tol s1 s2 = Some s ->
  Rabs (call s x - call s1 x * call s2 x) <= tol * (size_of (coeffs s1) * size_of (coeffs s2)).
Proof. exact mul_close_size. Qed.
Example C83_product_ex : exists s, mul_spline code_tol lline lline = Some s /\
  forall x, Rabs (call s x - call lline x * call lline x) <= code_tol * (1 * 1).
Proof.
  destruct (square_succeeds code_tol 0 1) as [s H]. exists s. split; [exact H|]. intros x.
  replace (1 * 1) with (size_of (coeffs lline) * size_of (coeffs lline))
    by (simpl; rewrite Rabs_R0, Rabs_R1; lra).
  apply (C83_product code_tol lline lline s 0 1); auto; try reflexivity.
  - unfold code_tol. left. apply Rinv_0_lt_compat. apply pow_lt. lra.
  - apply lbasis_clamped.
  - apply lbasis_clamped.
Qed.
Print Assumptions C83_product.

Theorem C83_product_exact : forall s1 s2 s lo hi x,
  clamped_on (sbasis s1) lo hi -> clamped_on (sbasis s2) lo hi -> sized s1 -> sized s2 ->
  mul_spline 0 s1 s2 = Some s -> call s x = call s1 x * call s2 x.
Proof. exact mul_exact. Qed.
Example C83_product_exact_ex : exists s, mul_spline 0 lline lline = Some s /\ call s (1/2) = 1/4.
Proof.
  destruct (square_succeeds 0 0 1) as [s H]. exists s. split; [exact H|].
  rewrite (C83_product_exact lline lline s 0 1); auto; try reflexivity; try apply lbasis_clamped.
  unfold lline. rewrite line_call by lra. lra.
Qed.
Print Assumptions C83_product_exact.

(* products can be multiplied again: the result is clamped on the same interval *)
Theorem C83_closed : forall tol s1 s2 s lo hi,
  clamped_on (sbasis s1) lo hi -> clamped_on (sbasis s2) lo hi ->
  mul_spline tol s1 s2 = Some s -> clamped_on (sbasis s) lo hi.
Proof. exact mul_clamped. Qed.
Example C83_closed_ex : exists s, mul_spline code_tol lline lline = Some s /\ clamped_on (sbasis s) 0 1.
Proof.
  destruct (square_succeeds code_tol 0 1) as [s H]. exists s. split; [exact H|].
  apply (C83_closed code_tol lline lline); auto; apply lbasis_clamped.
Qed.
Print Assumptions C83_closed.

Theorem C83_closed_sum : forall tol s1 s2 s lo hi,
  clamped_on (sbasis s1) lo hi -> clamped_on (sbasis s2) lo hi ->
  add_spline tol s1 s2 = Some s -> clamped_on (sbasis s) lo hi.
Proof. exact add_clamped. Qed.
Example C83_closed_sum_ex : exists s, add_spline code_tol (mkS obasis [1; 2; 3]) (mkS lbasis [5; 7]) = Some s /\
  clamped_on (sbasis s) 0 1.
Proof.
  destruct (add_mixed_succeeds code_tol [1; 2; 3] [5; 7]) as [s H]. exists s. split; [exact H|].
  apply (C83_closed_sum code_tol (mkS obasis [1; 2; 3]) (mkS lbasis [5; 7])); auto; [apply obasis_clamped|apply lbasis_clamped].
Qed.
Print Assumptions C83_closed_sum.
