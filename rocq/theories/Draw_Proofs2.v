(* Regular polygons as intersections of half planes; rectangles; stacked
   polygons; bodies of the classes of shape.py. *)
Require Import Reals List Lra Lia Psatz ZArith.
From Verif Require Import Geom_Model Geom_Spec Geom_Proofs Geom_Proofs2 Geom_Proofs3 Geom_Proofs4.
From Verif Require Import Angle_Model Angle_Proofs Draw_Model Draw_Spec Draw_Proofs.
Import ListNotations.
Open Scope R_scope.

Lemma cos_far : forall d a, 0 < d -> d <= PI -> d <= a <= 2 * PI - d -> cos a <= cos d.
Proof.
  intros d a D P A. destruct (Rle_dec a PI) as [L|G].
  - apply cos_decr_1; lra.
  - replace (cos a) with (cos (2 * PI - a)).
    + apply cos_decr_1; lra.
    + rewrite cos_minus, cos_2PI, sin_2PI. ring.
Qed.
Lemma cos_far_abs : forall d a, 0 < d -> d <= PI -> d <= Rabs a <= 2 * PI - d -> cos a <= cos d.
Proof.
  intros d a D P A. unfold Rabs in A. destruct (Rcase_abs a).
  - rewrite <- cos_neg. apply cos_far; assumption.
  - apply cos_far; assumption.
Qed.

Lemma ngon_in : forall r n x, 0 <= r -> (3 <= n)%nat -> hull (regular_vertices r n) x -> in_ngon r n x.
Proof.
  intros r n x P N H l L. pose proof (ngon_angle n N) as A. pose proof PI_RGT_0 as PP.
  assert (NP : 0 < INR n) by (apply lt_0_INR; lia).
  apply (hull_halfplane (regular_vertices r n) (sin (2 * PI * INR l / INR n), cos (2 * PI * INR l / INR n))); [|exact H].
  intros v V. rewrite regular_vertices_eq in V by exact N. apply in_map_iff in V. destruct V as (k & <- & K).
  apply in_seq in K. unfold nv. cbn [fst snd].
  set (b := 2 * PI * INR l / INR n). set (a := INR (2 * k + 1) * PI / INR n).
  replace (sin b * (r * sin a) + cos b * (r * cos a)) with (r * cos (a - b)) by (rewrite cos_minus; ring).
  apply Rmult_le_compat_l; [exact P|]. apply cos_far_abs; [lra|lra|].
  set (d := PI / INR n) in *.
  assert (E : a - b = (2 * (INR k - INR l) + 1) * d).
  { subst a b d. rewrite plus_INR, mult_INR. cbn [INR]. field. lra. }
  rewrite E, Rabs_mult, (Rabs_right d) by lra.
  assert (T : 2 * PI = 2 * INR n * d) by (subst d; field; lra). rewrite T.
  assert (KR : INR k <= INR n - 1).
  { replace (INR n - 1) with (INR (n - 1)) by (rewrite minus_INR by lia; cbn; ring). apply le_INR. lia. }
  assert (LR : INR l <= INR n - 1).
  { replace (INR n - 1) with (INR (n - 1)) by (rewrite minus_INR by lia; cbn; ring). apply le_INR. lia. }
  pose proof (pos_INR k). pose proof (pos_INR l).
  assert (J : 1 <= Rabs (2 * (INR k - INR l) + 1) <= 2 * INR n - 1).
  { destruct (le_lt_dec l k) as [G|G].
    - assert (INR l <= INR k) by (apply le_INR; exact G). rewrite Rabs_right by lra. lra.
    - assert (INR k + 1 <= INR l) by (rewrite <- S_INR; apply le_INR; exact G). rewrite Rabs_left by lra. lra. }
  nra.
Qed.

Lemma nearest_side : forall n phi, (0 < n)%nat ->
  exists (l : nat) (psi : R), (l < n)%nat /\ turns phi (2 * PI * INR l / INR n + psi) /\ Rabs psi <= PI / INR n.
Proof.
  intros n phi N. assert (NP : 0 < INR n) by (apply lt_0_INR; exact N). pose proof PI_RGT_0.
  set (d := 2 * PI / INR n). assert (D : 0 < d) by (apply Rdiv_lt_0_compat; lra).
  set (k := (up (phi / d - 1 / 2))%Z). destruct (archimed (phi / d - 1 / 2)) as [U1 U2]. fold k in U1, U2.
  set (nz := Z.of_nat n). assert (NZ : (0 < nz)%Z) by lia.
  pose proof (Z.mod_pos_bound k nz NZ) as M. pose proof (Z.div_mod k nz ltac:(lia)) as DM.
  exists (Z.to_nat (k mod nz)), (phi - IZR k * d). split; [lia|]. split.
  - exists (k / nz)%Z.
    assert (E : INR (Z.to_nat (k mod nz)) = IZR k - IZR (k / nz) * INR n).
    { rewrite INR_IZR_INZ, Z2Nat.id by lia. rewrite DM at 2. rewrite plus_IZR, mult_IZR.
      unfold nz. rewrite <- INR_IZR_INZ. ring. }
    rewrite E. subst d. field. lra.
  - assert (Q : phi = (phi / d) * d) by (field; lra). assert (W : PI / INR n = d / 2) by (subst d; field; lra).
    rewrite W.
    set (t := phi / d) in *. rewrite Q. replace (t * d - IZR k * d) with ((t - IZR k) * d) by ring.
    apply Rabs_le. split; nra.
Qed.

Lemma ngon_out : forall r n x, 0 < r -> (3 <= n)%nat -> in_ngon r n x -> hull (regular_vertices r n) x.
Proof.
  intros r n (x & y) RP N H. pose proof (ngon_angle n N) as A. pose proof PI_RGT_0 as PP.
  assert (NP : 0 < INR n) by (apply lt_0_INR; lia).
  destruct (atan2_polar x y) as [PC PS]. set (rho := sqrt (y * y + x * x)) in *. set (phi := atan2 x y) in *.
  assert (RH : 0 <= rho) by apply sqrt_pos.
  destruct (nearest_side n phi ltac:(lia)) as (l & psi & L & T & B).
  apply turns_cos in T. destruct T as [TC TS].
  set (b := 2 * PI * INR l / INR n) in *. set (d := PI / INR n) in *.
  assert (X : x = rho * sin (b + psi)) by (rewrite <- TS; lra).
  assert (Y : y = rho * cos (b + psi)) by (rewrite <- TC; lra).
  apply Rabs_le_iff in B.
  assert (F : rho * cos psi <= r * cos d).
  { specialize (H l L). fold b d in H. cbn [fst snd] in H. rewrite X, Y in H.
    replace (rho * cos psi) with (rho * cos ((b + psi) - b)) by (f_equal; f_equal; ring).
    rewrite (cos_minus (b + psi) b). lra. }
  assert (SD : 0 < sin d) by (apply sin_gt_0; lra).
  assert (CD : 0 < cos d) by (apply cos_gt_0; lra).
  set (al := rho * sin (d - psi) / (r * sin (2 * d))).
  set (be := rho * sin (d + psi) / (r * sin (2 * d))).
  assert (S2 : sin (2 * d) = 2 * sin d * cos d) by apply sin_2a.
  assert (DP : 0 < r * sin (2 * d)) by (rewrite S2; apply Rmult_lt_0_compat; [exact RP|nra]).
  assert (A1 : 0 <= al).
  { unfold al. apply Rmult_le_pos; [apply Rmult_le_pos; [exact RH|apply sin_ge_0; lra]|left; apply Rinv_0_lt_compat; exact DP]. }
  assert (B1 : 0 <= be).
  { unfold be. apply Rmult_le_pos; [apply Rmult_le_pos; [exact RH|apply sin_ge_0; lra]|left; apply Rinv_0_lt_compat; exact DP]. }
  assert (AB : al + be <= 1).
  { apply (Rmult_le_reg_r (r * sin (2 * d))); [exact DP|].
    replace ((al + be) * (r * sin (2 * d))) with (rho * sin (d - psi) + rho * sin (d + psi)).
    - rewrite sin_minus, sin_plus, S2. nra.
    - unfold al, be. field. split; nra. }
  set (w0 := (r * sin (b - d), r * cos (b - d)) : P2). set (w1 := (r * sin (b + d), r * cos (b + d)) : P2).
  assert (W1 : hull (regular_vertices r n) w1).
  { apply hull_vertex. rewrite regular_vertices_eq by exact N. apply in_map_iff. exists l. split; [|apply in_seq; lia].
    unfold nv, w1. replace (INR (2 * l + 1) * PI / INR n) with (b + d); [reflexivity|].
    subst b d. rewrite plus_INR, mult_INR. cbn [INR]. field. lra. }
  assert (W0 : hull (regular_vertices r n) w0).
  { apply hull_vertex. rewrite regular_vertices_eq by exact N. apply in_map_iff. destruct l as [|l'].
    - exists (n - 1)%nat. split; [|apply in_seq; lia]. unfold nv, w0.
      replace (INR (2 * (n - 1) + 1) * PI / INR n) with (b - d + 2 * PI).
      + rewrite sin_plus, cos_plus, cos_2PI, sin_2PI. f_equal; ring.
      + subst b d. replace (2 * (n - 1) + 1)%nat with (2 * n - 1)%nat by lia. rewrite minus_INR, mult_INR by lia. cbn [INR]. field. lra.
    - exists l'. split; [|apply in_seq; lia]. unfold nv, w0.
      replace (INR (2 * l' + 1) * PI / INR n) with (b - d); [reflexivity|].
      subst b d. rewrite S_INR, plus_INR, mult_INR. cbn [INR]. field. lra. }
  pose proof (hull_cone _ w0 w1 al be (ngon_centre r n N) W0 W1 A1 B1 AB) as C.
  match type of C with hull _ ?p => replace (x, y) with p; [exact C|] end.
  assert (S2P : 0 < sin (2 * d)) by (rewrite S2; nra).
  assert (AA : al * r = rho * sin (d - psi) / sin (2 * d)) by (unfold al; field; split; lra).
  assert (BB : be * r = rho * sin (d + psi) / sin (2 * d)) by (unfold be; field; split; lra).
  unfold w0, w1. cbn [fst snd]. f_equal.
  - rewrite X. replace (al * (r * sin (b - d)) + be * (r * sin (b + d)))
      with ((al * r) * sin (b - d) + (be * r) * sin (b + d)) by ring. rewrite AA, BB.
    apply (Rmult_eq_reg_r (sin (2 * d))); [|lra].
    replace ((rho * sin (d - psi) / sin (2 * d) * sin (b - d) + rho * sin (d + psi) / sin (2 * d) * sin (b + d)) * sin (2 * d))
      with (rho * (sin (d - psi) * sin (b - d) + sin (d + psi) * sin (b + d))) by (field; lra).
    rewrite S2, !sin_minus, !sin_plus. pose proof (sin2_cos2 d) as Q. unfold Rsqr in Q. ring.
  - rewrite Y. replace (al * (r * cos (b - d)) + be * (r * cos (b + d)))
      with ((al * r) * cos (b - d) + (be * r) * cos (b + d)) by ring. rewrite AA, BB.
    apply (Rmult_eq_reg_r (sin (2 * d))); [|lra].
    replace ((rho * sin (d - psi) / sin (2 * d) * cos (b - d) + rho * sin (d + psi) / sin (2 * d) * cos (b + d)) * sin (2 * d))
      with (rho * (sin (d - psi) * cos (b - d) + sin (d + psi) * cos (b + d))) by (field; lra).
    rewrite S2, !sin_minus, !sin_plus, !cos_minus, !cos_plus. ring.
Qed.
