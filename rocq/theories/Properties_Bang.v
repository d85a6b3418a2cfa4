(* Properties of the bang-bang jerk guess of the G-code scheduler. *)
From Coq Require Import Reals Lra Lia List Arith Bool.
From Verif Require Import Spline_Model Spline_Spec Gmove_Model Bang_Model Bang_Proofs.
Import ListNotations.
Local Open Scope R_scope.

(* as many jerk coefficients as the basis needs *)
Theorem C46_length : forall n j, length (jerk_coeffs n j) = n.
Proof. exact jerk_length. Qed.
Print Assumptions C46_length.

(* their sum is zero *)
Theorem C46_sum : forall n j, total (jerk_coeffs n j) = 0.
Proof. exact jerk_total. Qed.
Print Assumptions C46_sum.

(* they are symmetric *)
Theorem C46_symmetric : forall n j, rev (jerk_coeffs n j) = jerk_coeffs n j.
Proof. exact jerk_symmetric. Qed.
Print Assumptions C46_symmetric.

(* each is the limit, its opposite or zero *)
Theorem C46_values : forall n j c, In c (jerk_coeffs n j) -> c = j \/ c = - j \/ c = 0.
Proof. exact jerk_values. Qed.
Print Assumptions C46_values.

(* with four or more the profile starts at the limit *)
Theorem C46_active : forall n j, (4 <= n)%nat -> hd 0 (jerk_coeffs n j) = j.
Proof. exact jerk_first. Qed.
Example C46_active_ex : jerk_coeffs 5 2 = [2; - 2; 0; - 2; 2].
Proof. reflexivity. Qed.
Print Assumptions C46_active.

(* with fewer than four all are zero, and the scaling divides by zero *)
Theorem C46_short : forall n j, (n < 4)%nat -> Forall (fun c => c = 0) (jerk_coeffs n j).
Proof. exact jerk_short. Qed.
Example C46_short_ex : jerk_coeffs 3 2 = [0; 0; 0].
Proof. reflexivity. Qed.
Print Assumptions C46_short.

(* the guess is a spline on the vehicle's basis that runs from rest at the start to rest at the end of the segment *)
Theorem C46_rest : forall b j x0 x1, well_formed b -> clamped b -> (3 <= degree b)%nat ->
  (6 <= length (knots b) - degree b - 1)%nat ->
  let s := bang_guess b j x0 x1 in
  sized s /\
  call s (dom_left b) = x0 /\ call (derivative s 1) (dom_left b) = 0 /\ call (derivative s 2) (dom_left b) = 0 /\
  call s (dom_right b) = x1 /\ call (derivative s 1) (dom_right b) = 0 /\ call (derivative s 2) (dom_right b) = 0.
Proof. exact bang_rest. Qed.
Example C46_rest_ex : let b := mkB [0; 0; 0; 0; 1; 2; 3; 3; 3; 3] 3 in
  well_formed b /\ clamped b /\ (6 <= length (knots b) - degree b - 1)%nat.
Proof.
  cbv zeta. split; [split|split].
  - intros i j I J. cbn [knots length] in J.
    do 10 (destruct i as [|i]; [do 10 (destruct j as [|j]; [try lia; cbn; lra|]); lia|]); lia.
  - cbn. lia.
  - unfold clamped; cbn. repeat split; lra.
  - cbn. lia.
Qed.
Print Assumptions C46_rest.

(* with five coefficients the clamped ends overlap: the third is overwritten and the start acceleration is not zero *)
Theorem C46_few_refuted : exists pos, length pos = 5%nat /\ scaled_guess pos 0 1 = [0; 0; 1; 1; 1].
Proof.  exists [0; 0; 1; 2; 2]. split; reflexivity. Qed.
Print Assumptions C46_few_refuted.

(* zero sum of the coefficients is not zero net acceleration when the jerk basis is not piecewise constant *)
Theorem C46_integral_refuted : exists b, well_formed b /\ clamped b /\ integral (mkS b (jerk_coeffs (blen b) 1)) <> 0.
Proof.  exists (mkB [0; 0; 1; 2; 3; 3] 1). split; [split|split].
  - intros i j I J. cbn [knots length] in J.
    do 6 (destruct i as [|i]; [do 6 (destruct j as [|j]; [try lia; cbn; lra|]); lia|]); lia.
  - cbn. lia.
  - unfold clamped; cbn. repeat split; lra.
  - unfold integral, jerk_coeffs, blen, kn. simpl. lra. Qed.
Print Assumptions C46_integral_refuted.
