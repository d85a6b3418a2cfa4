(** Rational and tensor product splines (C179-C184). *)
From Coq Require Import Reals List Arith ZArith Lia Lra.
From Verif Require Import Spline_Model Spline_Spec Splop_Model Splop_Spec Splop_Proofs2 Splop_Proofs4 Obst_Model Nurbs_Model Nurbs_Spec
  Nurbs_Proofs Nurbs_Proofs2 Nurbs_Proofs3 Nurbs_Proofs4 Nurbs_Proofs5 Nurbs_Proofs6 Nurbs_Examples.
Import ListNotations.
Local Open Scope R_scope.

(* the rational basis functions lie between 0 and 1 and add up to one *)
Theorem C179_one : forall n x, nsized n -> well_formed (nbasis n) -> in_domain (nbasis n) x ->
  (forall w, In w (weights n) -> 0 < w) ->
  total (nurbs_row n x) = 1 /\ forall v, In v (nurbs_row n x) -> 0 <= v <= 1.
Proof. exact row_one. Qed.
Example C179_one_ex : total (nurbs_row skew (1/4)) = 1 /\ nurbs_row skew (1/4) = [3/5; 2/5].
Proof.
  split. { apply (C179_one skew (1/4) skew_sized ltac:(apply skew_clamped) (clamped_in _ 0 1 (1/4) skew_clamped ltac:(lra)) skew_pos). }
  unfold nurbs_row, times2, skew. cbn [nbasis weights]. rewrite lbasis_eval by lra. cbn. repeat (apply f_equal2; [field|]). reflexivity.
Qed.
Print Assumptions C179_one.

(* the value is the numerator over the denominator *)
Theorem C179_ratio : forall n x, nsized n -> ncall n x = call (num n) x / call (den n) x.
Proof. exact ncall_ratio. Qed.
Example C179_ratio_ex : ncall skew (1/2) = 1 / (3/2).
Proof. rewrite C179_ratio by apply skew_sized. rewrite skew_den, skew_num by lra. field. Qed.
Print Assumptions C179_ratio.

(* and lies between the smallest and the largest coefficient *)
Theorem C179_hull : forall n x lo hi, nsized n -> well_formed (nbasis n) -> in_domain (nbasis n) x ->
  (forall w, In w (weights n) -> 0 < w) -> (forall c, In c (ncoeffs n) -> lo <= c <= hi) -> lo <= ncall n x <= hi.
Proof. exact ncall_hull. Qed.
Example C179_hull_ex : 0 <= ncall skew (1/3) <= 1.
Proof.
  apply C179_hull; [apply skew_sized|apply skew_clamped|apply (clamped_in _ 0 1 _ skew_clamped); lra|apply skew_pos|].
  intros c [<-|[<-|[]]]; lra.
Qed.
Print Assumptions C179_hull.

(* division: numerator and denominator are off by the rounding of the transformation *)
Theorem C180_close : forall tol s1 s2 n lo hi x, 0 <= tol ->
  clamped_on (sbasis s1) lo hi -> clamped_on (sbasis s2) lo hi -> sized s1 -> sized s2 ->
  div_spline tol s1 s2 = Some n -> lo <= x <= hi ->
  exists p q, ncall n x = p / q /\ Rabs (p - call s1 x) <= tol * size_of (coeffs s1) /\ Rabs (q - call s2 x) <= tol * size_of (coeffs s2).
Proof. exact div_close. Qed.
Example C180_close_ex : exists n p q, div_spline 0 (mkS lbasis [3; 1]) (mkS lbasis [1; 2]) = Some n /\ ncall n (1/2) = p / q /\ p = 2 /\ q = 3/2.
Proof.
  destruct line_div as (n & E & _). destruct (C180_close 0 (mkS lbasis [3; 1]) (mkS lbasis [1; 2]) n 0 1 (1/2)) as (p & q & A & B & C);
    try lra; try apply lbasis_clamped; try reflexivity; try exact E.
  rewrite Rmult_0_l in B, C. apply Splop_Proofs3.close_0 in B, C. rewrite line_call in B, C by lra.
  exists n, p, q. repeat split; auto; lra.
Qed.
Print Assumptions C180_close.

(* without rounding it is the quotient of the values *)
Theorem C180_quotient : forall s1 s2 n lo hi x,
  clamped_on (sbasis s1) lo hi -> clamped_on (sbasis s2) lo hi -> sized s1 -> sized s2 ->
  div_spline 0 s1 s2 = Some n -> lo <= x <= hi -> ncall n x = call s1 x / call s2 x.
Proof. exact div_exact. Qed.
Example C180_quotient_ex : exists n, div_spline 0 (mkS lbasis [3; 1]) (mkS lbasis [1; 2]) = Some n /\ ncall n (1/2) = 4/3.
Proof.
  destruct line_div as (n & E & V). exists n. split; auto.
  rewrite (C180_quotient (mkS lbasis [3; 1]) (mkS lbasis [1; 2]) n 0 1 (1/2)); try apply lbasis_clamped; try reflexivity; try exact E; try lra.
  rewrite !line_call by lra. field.
Qed.
Print Assumptions C180_quotient.

(* although the denominator stays positive, a zero among its coefficients makes the result undefined *)
Theorem C180_zero_refuted : let s1 := mkS obasis [1; 1; 1] in let s2 := mkS obasis [1; 0; 1] in
  clamped_on obasis 0 1 /\ sized s1 /\ sized s2 /\ (forall x, 0 <= x <= 1 -> 1/2 <= call s2 x) /\ forall tol, div_spline tol s1 s2 = None.
Proof. exact div_refuted. Qed.
Print Assumptions C180_zero_refuted.

(* times a spline *)
Theorem C180_times : forall n s n' lo hi x, nsized n -> clamped_on (nbasis n) lo hi -> clamped_on (sbasis s) lo hi -> sized s ->
  nmul 0 n s = Some n' -> lo <= x <= hi -> call (den n) x <> 0 -> ncall n' x = ncall n x * call s x.
Proof. exact nmul_exact. Qed.
Example C180_times_ex : exists n, nmul 0 skew (mkS lbasis [1; 0]) = Some n /\ ncall n (1/2) = 1/3.
Proof.
  destruct skew_mul as (n & E & _). exists n. split; auto.
  rewrite (C180_times skew (mkS lbasis [1; 0]) n 0 1 (1/2)); auto using skew_sized, skew_clamped, lbasis_clamped; try lra; try reflexivity.
  - rewrite skew_call, line_call by lra. field.
  - rewrite skew_den by lra. lra.
Qed.
Print Assumptions C180_times.

(* times a number *)
Theorem C180_scaled : forall n a n' lo hi x, nsized n -> clamped_on (nbasis n) lo hi ->
  nmul_num 0 n a = Some n' -> lo <= x <= hi -> ncall n' x = a * ncall n x.
Proof. exact nmul_num_exact. Qed.
Example C180_scaled_ex : exists n, nmul_num 0 skew 3 = Some n /\ ncall n (1/2) = 2.
Proof.
  destruct skew_scale as (n & E & _). exists n. split; auto.
  rewrite (C180_scaled skew 3 n 0 1 (1/2)); auto using skew_sized, skew_clamped; try lra. rewrite skew_call by lra. field.
Qed.
Print Assumptions C180_scaled.

(* the sum of two *)
Theorem C180_sum : forall n1 n2 n lo hi x, nsized n1 -> nsized n2 -> clamped_on (nbasis n1) lo hi -> clamped_on (nbasis n2) lo hi ->
  nadd 0 n1 n2 = Some n -> lo <= x <= hi -> call (den n1) x <> 0 -> call (den n2) x <> 0 -> ncall n x = ncall n1 x + ncall n2 x.
Proof. exact nadd_exact. Qed.
Example C180_sum_ex : exists n, nadd 0 skew skew = Some n /\ ncall n (1/2) = 4/3.
Proof.
  destruct skew_add as (n & E & _). exists n. split; auto.
  rewrite (C180_sum skew skew n 0 1 (1/2)); auto using skew_sized, skew_clamped; try lra; try (rewrite skew_den by lra; lra).
  rewrite skew_call by lra. field.
Qed.
Print Assumptions C180_sum.

(* without inner knots the derivative is the derivative *)
Theorem C181_slope : forall n n' lo hi x, nsized n -> clamped_on (nbasis n) lo hi -> (1 <= degree (nbasis n))%nat ->
  no_inner (nbasis n) lo hi -> nderiv 0 n = Some n' -> lo < x < hi -> call (den n) x <> 0 ->
  derivable_pt_lim (ncall n) x (ncall n' x).
Proof. exact nderiv_correct. Qed.
Example C181_slope_ex : exists n, nderiv 0 skew = Some n /\ derivable_pt_lim (ncall skew) (1/2) (ncall n (1/2)) /\ ncall n (1/2) = 8/9.
Proof.
  destruct skew_deriv as (n & E & V). exists n. split; auto. split.
  - apply (C181_slope skew n 0 1); auto using skew_sized, skew_clamped, skew_no_inner; try lra; try (cbn; lia). rewrite skew_den by lra. lra.
  - rewrite V by lra. field.
Qed.
Print Assumptions C181_slope.

(* of every order *)
Theorem C181_orders : forall o n n' lo hi, nsized n -> clamped_on (nbasis n) lo hi -> (1 <= degree (nbasis n))%nat ->
  no_inner (nbasis n) lo hi -> (forall x, lo <= x <= hi -> call (den n) x <> 0) -> nderivs 0 n o = Some n' ->
  nth_deriv o (ncall n) lo hi (ncall n').
Proof. exact nderivs_correct. Qed.
Example C181_orders_ex : exists n, nderivs 0 skew 1 = Some n /\ nth_deriv 1 (ncall skew) 0 1 (ncall n).
Proof.
  destruct skew_deriv as (n & E & V). exists n. split; auto.
  apply (C181_orders 1 skew n 0 1); auto using skew_sized, skew_clamped, skew_no_inner; try (cbn; lia). intros x X. rewrite skew_den by lra. lra.
Qed.
Print Assumptions C181_orders.

(* with inner knots it is wrong: the hat function with all weights one *)
Theorem C181_kinks_refuted : forall tol, 0 <= tol < 1/10 -> nsized hat /\ clamped_on (nbasis hat) 0 1 /\ (forall w, In w (weights hat) -> w = 1) /\
  ~ exists n', nderiv tol hat = Some n' /\ forall x, 0 < x < 1 -> x <> 1/2 -> derivable_pt_lim (ncall hat) x (ncall n' x).
Proof. exact nderiv_refuted. Qed.
Print Assumptions C181_kinks_refuted.

(* inserting knots keeps the value when all weights are equal *)
Theorem C182_even : forall n ts n' lo hi a x, nsized n -> clamped_on (nbasis n) lo hi -> (forall t, In t ts -> lo <= t <= hi) ->
  weights n = repeat a (blen (nbasis n)) -> a <> 0 -> ninsert 0 n ts = Some n' -> lo <= x <= hi -> ncall n' x = ncall n x.
Proof. exact ninsert_even. Qed.
Example C182_even_ex : exists n, ninsert 0 (mkN lbasis [2; 2] [0; 1]) [1/2] = Some n /\ ncall n (1/4) = ncall (mkN lbasis [2; 2] [0; 1]) (1/4).
Proof.
  destruct even_insert as (n & E & _). exists n. split; auto.
  apply (C182_even (mkN lbasis [2; 2] [0; 1]) [1/2] n 0 1 2); auto using lbasis_clamped; try lra; try (split; reflexivity).
  intros t [<-|[]]. lra.
Qed.
Print Assumptions C182_even.

(* but changes it otherwise *)
Theorem C182_weights_refuted : forall tol, 0 <= tol <= 1/2 ->
  nsized skew /\ clamped_on (nbasis skew) 0 1 /\ (forall w, In w (weights skew) -> 0 < w) /\
  exists n', ninsert tol skew [1/2] = Some n' /\ ncall skew (1/2) = 2/3 /\ ncall n' (1/2) = 1/2.
Proof. exact ninsert_refuted. Qed.
Print Assumptions C182_weights_refuted.

(* the value of a tensor product spline in any number of variables *)
Theorem C183_value : forall t xs, length xs = length (tbasis t) -> tcall t xs = tsum (tbasis t) xs (tcoeffs t).
Proof. exact tcall_tsum. Qed.
Example C183_value_ex : tcall xy [1/2; 1/3] = 1/6 /\ tcall xy [1/2; 1/3] = tsum [lbasis; lbasis] [1/2; 1/3] (tcoeffs xy).
Proof. split; [rewrite xy_call by lra; field|]. apply (C183_value xy). reflexivity. Qed.
Print Assumptions C183_value.

(* sums *)
Theorem C183_sum : forall t1 t2 t X xs, clamped_box X (tbasis t1) -> clamped_box X (tbasis t2) -> in_box X xs ->
  tadd 0 t1 t2 = Some t -> tcall t xs = tcall t1 xs + tcall t2 xs.
Proof. exact tadd_exact. Qed.
Example C183_sum_ex : exists t, tadd 0 xy x2y = Some t /\ tcall t [1/2; 1/4] = 9/8.
Proof.
  destruct (lt2_add (tcoeffs xy) (tcoeffs x2y)) as (t & E). exists t. split; [exact E|].
  rewrite (C183_sum xy x2y t unit2); try apply unit2_clamped; try (apply unit2_in; lra); try exact E. rewrite xy_call, x2y_call by lra. field.
Qed.
Print Assumptions C183_sum.

(* differences *)
Theorem C183_difference : forall t1 t2 t X xs, clamped_box X (tbasis t1) -> clamped_box X (tbasis t2) -> in_box X xs ->
  tsub 0 t1 t2 = Some t -> tcall t xs = tcall t1 xs - tcall t2 xs.
Proof. exact tsub_exact. Qed.
Example C183_difference_ex : exists t, tsub 0 xy x2y = Some t /\ tcall t [1/2; 1/4] = - 7/8.
Proof.
  destruct (lt2_add (tcoeffs xy) (tcoeffs (tneg x2y))) as (t & E). exists t. split; [exact E|].
  rewrite (C183_difference xy x2y t unit2); try apply unit2_clamped; try (apply unit2_in; lra); try exact E. rewrite xy_call, x2y_call by lra. field.
Qed.
Print Assumptions C183_difference.

(* plus a number *)
Theorem C183_shifted : forall t a X xs, clamped_box X (tbasis t) -> in_box X xs -> tcall (tadd_num t a) xs = tcall t xs + a.
Proof. exact tadd_num_call. Qed.
Example C183_shifted_ex : tcall (tadd_num xy 2) [1/2; 1/2] = 9/4.
Proof. rewrite (C183_shifted xy 2 unit2); try apply unit2_clamped; try (apply unit2_in; lra). rewrite xy_call by lra. field. Qed.
Print Assumptions C183_shifted.

(* times a number *)
Theorem C183_scaled : forall t a xs, tcall (tmul_num t a) xs = a * tcall t xs.
Proof. exact tmul_num_call. Qed.
Example C183_scaled_ex : tcall (tmul_num xy 8) [1/2; 1/2] = 2.
Proof. rewrite C183_scaled, xy_call by lra. field. Qed.
Print Assumptions C183_scaled.

(* products of splines in two variables *)
Theorem C183_product : forall t1 t2 t X xs, clamped_box X (tbasis t1) -> clamped_box X (tbasis t2) -> in_box X xs ->
  tmul 0 t1 t2 = Some t -> tcall t xs = tcall t1 xs * tcall t2 xs.
Proof. exact tmul_exact. Qed.
Example C183_product_ex : exists t, tmul 0 xy x2y = Some t /\ tcall t [1/2; 1/4] = 1/8.
Proof.
  destruct (lt2_mul (tcoeffs xy) (tcoeffs x2y)) as (t & E). exists t. split; [exact E|].
  rewrite (C183_product xy x2y t unit2); try apply unit2_clamped; try (apply unit2_in; lra); try exact E. rewrite xy_call, x2y_call by lra. field.
Qed.
Print Assumptions C183_product.

(* there are no others *)
Theorem C183_two_only : forall tol t1 t2 t, tmul tol t1 t2 = Some t -> length (tbasis t1) = 2%nat /\ length (tbasis t2) = 2%nat.
Proof. exact tmul_plane_only. Qed.
Example C183_two_only_ex : tmul 0 (mkT [lbasis] (fun _ => 1)) (mkT [lbasis] (fun _ => 1)) = None /\ exists t, tmul 0 xy xy = Some t.
Proof. split; [reflexivity|]. exact (lt2_mul (tcoeffs xy) (tcoeffs xy)). Qed.
Print Assumptions C183_two_only.

(* a number minus a spline gives the spline minus the number *)
Theorem C183_minus_value : forall t a X xs, clamped_box X (tbasis t) -> in_box X xs -> tcall (trsub_num a t) xs = tcall t xs - a.
Proof. exact trsub_num_call. Qed.
Example C183_minus_value_ex : tcall (trsub_num 3 xy) [1/2; 1/2] = 1/4 - 3.
Proof. rewrite (C183_minus_value xy 3 unit2); try apply unit2_clamped; try (apply unit2_in; lra). rewrite xy_call by lra. field. Qed.
Print Assumptions C183_minus_value.

(* which is the wrong sign *)
Theorem C183_minus_refuted : exists t a X xs, clamped_box X (tbasis t) /\ in_box X xs /\ tcall (trsub_num a t) xs <> a - tcall t xs.
Proof. exact trsub_refuted. Qed.
Print Assumptions C183_minus_refuted.

(* what the integral over two variables is: the integral of the integrals of the slices *)
Theorem C184_means : forall b0 b1 c, let t := mkT [b0; b1] c in
  let slice x := mkS b1 (map (fun j => total (map (fun i => nth i (eval_basis b0 x) 0 * c [i; j]) (seq 0 (blen b0)))) (seq 0 (blen b1))) in
  exists F, sbasis F = b0 /\ sized F /\ tint [b0; b1] c = integral F /\
    (forall x, call F x = integral (slice x)) /\ forall x y, call (slice x) y = tcall t [x; y].
Proof. exact tint_slices. Qed.
Example C184_means_ex : tint [lbasis; lbasis] (tcoeffs xy) = 1/4.
Proof.
  rewrite tint_vsum. cbn [map xy lt2 tcoeffs]. unfold spans_of, lbasis, kn. cbn [knots degree length Nat.add Nat.sub seq map nth]. unfold vsum, total. cbn. field.
Qed.
Print Assumptions C184_means.

(* the integral is right in one and two variables, and for more when all but the last variable have the same basis *)
Theorem C184_right : forall b b1 n c, tintegral (mkT (repeat b n ++ [b1]) c) = Some (tint (repeat b n ++ [b1]) c).
Proof. exact tintegral_same. Qed.
Example C184_right_ex : tintegral xy = Some (1/4).
Proof. rewrite <- C184_means_ex. exact (C184_right lbasis lbasis 1 (tcoeffs xy)). Qed.
Print Assumptions C184_right.

(* with different bases it is wrong *)
Theorem C184_order_refuted : exists t X v, clamped_box X (tbasis t) /\ tintegral t = Some v /\ v <> tint (tbasis t) (tcoeffs t).
Proof. exact tintegral_refuted. Qed.
Print Assumptions C184_order_refuted.

(* or raises *)
Theorem C184_raises_refuted : exists t X, clamped_box X (tbasis t) /\ tintegral t = None.
Proof. exact tintegral_raises. Qed.
Print Assumptions C184_raises_refuted.
