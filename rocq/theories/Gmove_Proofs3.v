(* Proofs about the segment switching test and the motion time estimate. *)
Require Import Reals List Lra Lia Bool Arith.
From Verif Require Import Angle_Model Angle_Proofs Geom_Model Geom_Spec Geom_Proofs Geom_Proofs2 Geom_Proofs3
  Gmove_Model Gmove_Spec Gmove_Proofs.
Import ListNotations.
Open Scope R_scope.

(* ---------- switching test ---------- *)

(* coordinates along and across a rectangle *)
Definition along (c : R * R) (th : R) (x : R * R) : R := cos th * (fst x - fst c) + sin th * (snd x - snd c).
Definition across (c : R * R) (th : R) (x : R * R) : R := - sin th * (fst x - fst c) + cos th * (snd x - snd c).

Lemma local_point : forall c th x, x = add2 c (turned th (along c th x, across c th x)).
Proof.
  intros [cx cy] th [xx xy]. unfold along, across, add2, turned; cbn [fst snd]. pose proof (cs2 th) as CS.
  f_equal.
  - transitivity (cx + (cos th * cos th + sin th * sin th) * (xx - cx)); [rewrite CS; ring|ring].
  - transitivity (cy + (cos th * cos th + sin th * sin th) * (xy - cy)); [rewrite CS; ring|ring].
Qed.

Lemma side_len : forall c th q1 q2,
  sqrt ((fst (add2 c (turned th q2)) - fst (add2 c (turned th q1))) ^ 2 +
        (snd (add2 c (turned th q2)) - snd (add2 c (turned th q1))) ^ 2) =
  sqrt ((fst q2 - fst q1) * (fst q2 - fst q1) + (snd q2 - snd q1) * (snd q2 - snd q1)).
Proof.
  intros [cx cy] th [a b] [e f]. unfold add2, turned; cbn [fst snd]. f_equal.
  transitivity ((cos th * cos th + sin th * sin th) * ((e - a) * (e - a) + (f - b) * (f - b))); [ring|].
  rewrite cs2. ring.
Qed.
Lemma side_value_local : forall c th x q1 q2,
  side_value x (add2 c (turned th q1), add2 c (turned th q2)) =
  (- (snd q2 - snd q1) * (along c th x - fst q1) + (fst q2 - fst q1) * (across c th x - snd q1)) *
  (1 / sqrt ((fst q2 - fst q1) * (fst q2 - fst q1) + (snd q2 - snd q1) * (snd q2 - snd q1))).
Proof.
  intros c th x q1 q2. unfold side_value. rewrite side_len.
  set (n := 1 / sqrt _). clearbody n.
  rewrite (local_point c th x) at 1 2. set (u := along c th x). set (v := across c th x). clearbody u v.
  destruct c as [cx cy], q1 as [a b], q2 as [e f]. unfold add2, turned; cbn [fst snd].
  pose proof (cs2 th) as CS.
  transitivity ((cos th * cos th + sin th * sin th) * ((- (f - b) * (u - a) + (e - a) * (v - b)) * n)); [ring|].
  rewrite CS. ring.
Qed.

Lemma sqrt_sq_plus0 : forall w, 0 < w -> forall a b, a * a = w * w -> b = 0 -> sqrt (a * a + b * b) = w.
Proof. intros w W a b A ->. rewrite A, Rmult_0_l, Rplus_0_r. apply sqrt_square. lra. Qed.

Section Rect.
Variables (w h th : R) (c x : R * R) (m : R).
Hypothesis W : 0 < w.
Hypothesis H : 0 < h.
Let W4 (q : R * R) := add2 c (turned th q).
Let q1 := (w / 2, h / 2).
Let q2 := (w / 2, - (h / 2)).
Let q3 := (- (w / 2), - (h / 2)).
Let q4 := (- (w / 2), h / 2).

Lemma verts : map (add2 c) (rectangle_vertices w h th) = [W4 q1; W4 q2; W4 q3; W4 q4].
Proof. rewrite rectangle_vertices_eq. reflexivity. Qed.

Lemma len_right : dist2 (W4 q1) (W4 q2) = h.
Proof.
  unfold dist2, W4. rewrite side_len. unfold q1, q2; cbn [fst snd].
  replace ((w / 2 - w / 2) * (w / 2 - w / 2) + (- (h / 2) - h / 2) * (- (h / 2) - h / 2)) with (h * h) by field.
  apply sqrt_square; lra.
Qed.
Lemma len_bottom : dist2 (W4 q2) (W4 q3) = w.
Proof.
  unfold dist2, W4. rewrite side_len. unfold q2, q3; cbn [fst snd].
  replace ((- (w / 2) - w / 2) * (- (w / 2) - w / 2) + (- (h / 2) - - (h / 2)) * (- (h / 2) - - (h / 2))) with (w * w) by field.
  apply sqrt_square; lra.
Qed.
Lemma len_left : dist2 (W4 q3) (W4 q4) = h.
Proof.
  unfold dist2, W4. rewrite side_len. unfold q3, q4; cbn [fst snd].
  replace ((- (w / 2) - - (w / 2)) * (- (w / 2) - - (w / 2)) + (h / 2 - - (h / 2)) * (h / 2 - - (h / 2))) with (h * h) by field.
  apply sqrt_square; lra.
Qed.

Lemma val_right : side_value x (W4 q1, W4 q2) = along c th x - w / 2.
Proof.
  unfold W4. rewrite side_value_local. unfold q1, q2; cbn [fst snd].
  replace ((w / 2 - w / 2) * (w / 2 - w / 2) + (- (h / 2) - h / 2) * (- (h / 2) - h / 2)) with (h * h) by field.
  rewrite sqrt_square by lra. field. lra.
Qed.
Lemma val_bottom : side_value x (W4 q2, W4 q3) = - across c th x - h / 2.
Proof.
  unfold W4. rewrite side_value_local. unfold q2, q3; cbn [fst snd].
  replace ((- (w / 2) - w / 2) * (- (w / 2) - w / 2) + (- (h / 2) - - (h / 2)) * (- (h / 2) - - (h / 2))) with (w * w) by field.
  rewrite sqrt_square by lra. field. lra.
Qed.
Lemma val_left : side_value x (W4 q3, W4 q4) = - along c th x - w / 2.
Proof.
  unfold W4. rewrite side_value_local. unfold q3, q4; cbn [fst snd].
  replace ((- (w / 2) - - (w / 2)) * (- (w / 2) - - (w / 2)) + (h / 2 - - (h / 2)) * (h / 2 - - (h / 2))) with (h * h) by field.
  rewrite sqrt_square by lra. field. lra.
Qed.
Lemma val_top : side_value x (W4 q4, W4 q1) = across c th x - h / 2.
Proof.
  unfold W4. rewrite side_value_local. unfold q4, q1; cbn [fst snd].
  replace ((w / 2 - - (w / 2)) * (w / 2 - - (w / 2)) + (h / 2 - h / 2) * (h / 2 - h / 2)) with (w * w) by field.
  rewrite sqrt_square by lra. field. lra.
Qed.

Lemma abs_lt_iff : forall a b, Rabs a < b <-> - b < a < b.
Proof. intros a b. split; [intros K; apply Rabs_def2 in K; lra|intros K; apply Rabs_def1; lra]. Qed.

Lemma diagonal_test : rmod th PI <> 0 -> rmod th (PI / 2) <> 0 -> 1 / 1000 <= Rabs (w - h) ->
  (in_extended_rectangle w h th c x m = true <-> Rabs (across c th x) < h / 2 - m).
Proof.
  intros N1 N2 D. unfold in_extended_rectangle. rewrite verts.
  destruct (Req_EM_T (rmod th PI) 0); [contradiction|]. destruct (Req_EM_T (rmod th (PI / 2)) 0); [contradiction|].
  unfold couples. cbn [combine filter fst snd]. rewrite len_right, len_bottom, len_left.
  replace (Rltb (Rabs (h - w)) (1 / 1000)) with false by (symmetry; apply Rltb_ge; rewrite Rabs_minus_sym; exact D).
  replace (Rltb (Rabs (w - w)) (1 / 1000)) with true
    by (symmetry; apply Rltb_lt; replace (w - w) with 0 by ring; rewrite Rabs_R0; lra).
  cbn [length Nat.eqb app last hd forallb]. rewrite val_bottom, val_top, abs_lt_iff.
  rewrite !andb_true_iff, !Rltb_lt. split; intros; repeat split; try lra; auto.
Qed.
Lemma square_test : rmod th PI <> 0 -> rmod th (PI / 2) <> 0 -> Rabs (w - h) < 1 / 1000 ->
  (in_extended_rectangle w h th c x m = true <->
   Rabs (along c th x) < w / 2 - m /\ Rabs (across c th x) < h / 2 - m).
Proof.
  intros N1 N2 D. unfold in_extended_rectangle. rewrite verts.
  destruct (Req_EM_T (rmod th PI) 0); [contradiction|]. destruct (Req_EM_T (rmod th (PI / 2)) 0); [contradiction|].
  unfold couples. cbn [combine filter fst snd]. rewrite len_right, len_bottom, len_left.
  replace (Rltb (Rabs (h - w)) (1 / 1000)) with true by (symmetry; apply Rltb_lt; rewrite Rabs_minus_sym; exact D).
  replace (Rltb (Rabs (w - w)) (1 / 1000)) with true
    by (symmetry; apply Rltb_lt; replace (w - w) with 0 by ring; rewrite Rabs_R0; lra).
  cbn [length Nat.eqb app last hd forallb]. rewrite val_right, val_bottom, val_left, val_top, !abs_lt_iff.
  rewrite !andb_true_iff, !Rltb_lt. split; intros; repeat split; try lra; auto.
Qed.

Lemma rmod_zero : forall a p, rmod a p = 0 -> exists z : Z, a = p * IZR z.
Proof. intros a p E. exists (Int_part (a / p)). unfold rmod in E. lra. Qed.
Lemma Int_part_whole : forall z : Z, Int_part (IZR z) = z.
Proof.
  intros z. destruct (base_Int_part (IZR z)) as (A & B).
  assert (A' : (Int_part (IZR z) <= z)%Z) by (apply le_IZR; exact A).
  assert (B' : (z < Int_part (IZR z) + 1)%Z) by (apply lt_IZR; rewrite plus_IZR; lra). lia.
Qed.
Lemma rmod_multiple : forall p (z : Z), 0 < p -> rmod (p * IZR z) p = 0.
Proof.
  intros p z P. unfold rmod. replace (p * IZR z / p) with (IZR z) by (field; lra). rewrite Int_part_whole. ring.
Qed.

Lemma sin_multiple : forall z : Z, sin (PI * IZR z) = 0.
Proof. intros z. rewrite Rmult_comm. apply sin_eq_0_1. exists z. reflexivity. Qed.
Lemma horizontal_sin : rmod th PI = 0 -> sin th = 0.
Proof. intros E. destruct (rmod_zero _ _ E) as (z & ->). apply sin_multiple. Qed.
Lemma vertical_cos : rmod th (PI / 2) = 0 -> rmod th PI <> 0 -> cos th = 0.
Proof.
  intros E N. destruct (rmod_zero _ _ E) as (z & Z). destruct (Z.Even_or_Odd z) as [(k & K)|(k & K)].
  - exfalso. apply N. rewrite Z, K, mult_IZR. replace (PI / 2 * (2 * IZR k)) with (PI * IZR k) by field.
    apply rmod_multiple. apply PI_RGT_0.
  - rewrite Z, K, plus_IZR, mult_IZR.
    replace (PI / 2 * (2 * IZR k + 1)) with (PI / 2 + PI * IZR k) by field.
    rewrite cos_plus, cos_PI2, sin_PI2, sin_multiple. ring.
Qed.

Lemma minmax4 : forall p q b,
  (Rltb b (amax [p; q; q; p]) && Rltb (amin [p; q; q; p]) b)%bool = true <-> Rmin p q < b < Rmax p q.
Proof.
  intros p q b. unfold amax, amin, row_max, row_min. cbn [fold_right]. rewrite andb_true_iff, !Rltb_lt.
  assert (M1 : Rmax q (Rmax q (Rmax p p)) = Rmax p q).
  { rewrite (Rmax_left p p) by lra. rewrite (Rmax_comm q p). destruct (Rle_dec p q).
    - rewrite (Rmax_right p q) by lra. apply Rmax_left; lra.
    - rewrite (Rmax_left p q) by lra. apply Rmax_right; lra. }
  assert (M2 : Rmin q (Rmin q (Rmin p p)) = Rmin p q).
  { rewrite (Rmin_left p p) by lra. rewrite (Rmin_comm q p). destruct (Rle_dec p q).
    - rewrite (Rmin_left p q) by lra. apply Rmin_right; lra.
    - rewrite (Rmin_right p q) by lra. apply Rmin_left; lra. }
  rewrite M1, M2. tauto.
Qed.
Lemma mid_pm : forall k y b, Rmin (y + k) (y - k) < b < Rmax (y + k) (y - k) <-> Rabs (b - y) < Rabs k.
Proof.
  intros k y b. rewrite abs_lt_iff. unfold Rmin, Rmax, Rabs.
  repeat (match goal with |- context [Rle_dec ?u ?v] => destruct (Rle_dec u v) end); destruct (Rcase_abs k); lra.
Qed.

Lemma unit_of_square : forall a, a * a = 1 -> Rabs a = 1.
Proof.
  intros a E. unfold Rabs. destruct (Rcase_abs a).
  - assert ((- a - 1) * (- a + 1) = 0) by (ring_simplify; lra). apply Rmult_integral in H0. lra.
  - assert ((a - 1) * (a + 1) = 0) by (ring_simplify; lra). apply Rmult_integral in H0. lra.
Qed.

(* with a horizontal or vertical segment the margin plays no role *)
Lemma axis_test : rmod th PI = 0 \/ rmod th (PI / 2) = 0 ->
  (in_extended_rectangle w h th c x m = true <-> Rabs (across c th x) < h / 2).
Proof.
  intros A. pose proof (cs2 th) as CS. unfold in_extended_rectangle. rewrite verts.
  unfold W4, q1, q2, q3, q4, ys, xs, add2, turned. cbn [map fst snd].
  destruct (Req_EM_T (rmod th PI) 0) as [E|N].
  - pose proof (horizontal_sin E) as S0. rewrite S0 in *.
    assert (C1 : Rabs (cos th) = 1) by (apply unit_of_square; lra).
    replace (snd c + (w / 2 * 0 + h / 2 * cos th)) with (snd c + cos th * (h / 2)) by ring.
    replace (snd c + (w / 2 * 0 + - (h / 2) * cos th)) with (snd c - cos th * (h / 2)) by ring.
    replace (snd c + (- (w / 2) * 0 + - (h / 2) * cos th)) with (snd c - cos th * (h / 2)) by ring.
    replace (snd c + (- (w / 2) * 0 + h / 2 * cos th)) with (snd c + cos th * (h / 2)) by ring.
    rewrite minmax4, mid_pm. unfold across. rewrite S0.
    replace (- 0 * (fst x - fst c) + cos th * (snd x - snd c)) with (cos th * (snd x - snd c)) by ring.
    rewrite !Rabs_mult, C1, (Rabs_pos_eq (h / 2)) by lra. rewrite !Rmult_1_l. reflexivity.
  - destruct A as [A|A]; [contradiction|]. destruct (Req_EM_T (rmod th (PI / 2)) 0); [|contradiction].
    pose proof (vertical_cos A N) as C0. rewrite C0 in *.
    assert (S1 : Rabs (sin th) = 1) by (apply unit_of_square; lra).
    replace (fst c + (w / 2 * 0 - h / 2 * sin th)) with (fst c + (- sin th) * (h / 2)) by ring.
    replace (fst c + (w / 2 * 0 - - (h / 2) * sin th)) with (fst c - (- sin th) * (h / 2)) by ring.
    replace (fst c + (- (w / 2) * 0 - - (h / 2) * sin th)) with (fst c - (- sin th) * (h / 2)) by ring.
    replace (fst c + (- (w / 2) * 0 - h / 2 * sin th)) with (fst c + (- sin th) * (h / 2)) by ring.
    rewrite minmax4, mid_pm. unfold across. rewrite C0.
    replace (- sin th * (fst x - fst c) + 0 * (snd x - snd c)) with (- sin th * (fst x - fst c)) by ring.
    rewrite !Rabs_mult, Rabs_Ropp, S1, (Rabs_pos_eq (h / 2)) by lra. rewrite !Rmult_1_l. reflexivity.
Qed.
End Rect.

Lemma ring_test : forall ri ro c x m,
  in_extended_ring ri ro c x m = true <-> ri + m <= dist x c <= ro - m.
Proof.
  intros ri ro c x m. unfold in_extended_ring, Rleb, dist, Rsqr.
  replace ((fst x - fst c) ^ 2 + (snd x - snd c) ^ 2) with ((fst x - fst c) * (fst x - fst c) + (snd x - snd c) * (snd x - snd c)) by ring.
  set (r := sqrt _). destruct (Rle_dec (ri + m) r), (Rle_dec r (ro - m)); cbn; split; intros; try discriminate; try lra; auto.
Qed.

(* ---------- motion time ---------- *)

Lemma eight_profile : forall j T1 T2 T4,
  profile (eight j T1 T2 T4) (0, 0, 0) = (j * T1 * (T1 + T2) * (2 * T1 + T2 + 2 * T4), 0, 0).
Proof. intros. unfold eight, profile, coast. apply f_equal2; [apply f_equal2|]; field. Qed.

Lemma eight_within : forall j a v T1 T2 T4, 0 < j -> 0 <= T1 -> 0 <= T2 -> 0 <= T4 ->
  j * T1 <= a -> j * T1 * (T1 + T2) <= v -> within v a (eight j T1 T2 T4) (0, 0, 0).
Proof.
  intros j a v T1 T2 T4 J H1 H2 H4 A V.
  assert (JT : 0 <= j * T1) by nra. assert (JTT : 0 <= j * T1 * T1) by nra. assert (JT2 : 0 <= j * T1 * T2) by nra.
  assert (G : forall p q, 0 <= q <= T1 -> p = j * (q * q) / 2 -> 0 <= p <= j * T1 * T1 / 2).
  { intros p q Q ->. assert (0 <= q * q <= T1 * T1) by nra. split; nra. }
  unfold eight, within, coast. repeat (split; [lra|]).
  split.
  { intros u U. pose proof (G _ u U eq_refl). assert (0 <= j * u <= j * T1) by nra. split; nra. }
  split; [lra|]. split.
  { intros u U. assert (0 <= j * T1 * u <= j * T1 * T2) by nra. split; nra. }
  split; [lra|]. split.
  { intros u U. assert (0 <= j * u <= j * T1) by nra.
    pose proof (G _ (T1 - u) ltac:(lra) eq_refl). split; [|lra].
    replace (0 + 0 * T1 + j * T1 ^ 2 / 2 + (0 + j * T1) * T2 + 0 * T2 ^ 2 / 2 + (0 + j * T1 + 0 * T2) * u + - j * u ^ 2 / 2)
      with (j * T1 * T1 + j * T1 * T2 - j * ((T1 - u) * (T1 - u)) / 2) by field. lra. }
  split; [lra|]. split.
  { intros u U. split; [|lra].
    match goal with |- 0 <= ?e <= _ => replace e with (j * T1 * T1 + j * T1 * T2) by field end. lra. }
  split; [lra|]. split.
  { intros u U. split; [|lra].
    match goal with |- 0 <= ?e <= _ => replace e with (j * T1 * T1 + j * T1 * T2) by field end. lra. }
  split; [lra|]. split.
  { intros u U. assert (0 <= j * u <= j * T1) by nra. pose proof (G _ u U eq_refl). split; [|lra].
    match goal with |- 0 <= ?e <= _ => replace e with (j * T1 * T1 + j * T1 * T2 - j * (u * u) / 2) by field end. lra. }
  split; [lra|]. split.
  { intros u U. assert (0 <= j * T1 * u <= j * T1 * T2) by nra. split; [|lra].
    match goal with |- 0 <= ?e <= _ => replace e with (j * T1 * T1 / 2 + j * T1 * T2 - j * T1 * u) by field end. lra. }
  split; [lra|]. split; [|exact I].
  intros u U. assert (0 <= j * u <= j * T1) by nra. pose proof (G _ (T1 - u) ltac:(lra) eq_refl). split; [|lra].
  match goal with |- 0 <= ?e <= _ => replace e with (j * ((T1 - u) * (T1 - u)) / 2) by field end. lra.
Qed.

Lemma cbrt_cube : forall x, 0 < x -> 0 < cbrt x /\ cbrt x ^ 3 = x.
Proof.
  intros x X. unfold cbrt. split; [unfold Rpower; apply exp_pos|].
  rewrite <- Rpower_pow by (unfold Rpower; apply exp_pos). rewrite Rpower_mult.
  replace (1 / 3 * INR 3) with 1 by (simpl; field). apply Rpower_1. exact X.
Qed.
Lemma cube_mono : forall a b, 0 <= a -> a <= b -> a ^ 3 <= b ^ 3.
Proof. intros a b A B. apply pow_incr. lra. Qed.

Lemma phases_ok : forall j a v d, 0 < j -> 0 < a -> 0 < v -> 0 < d ->
  let '(T1, T2, T4) := phases j a v d in
  0 < T1 /\ 0 <= T2 /\ 0 <= T4 /\ j * T1 <= a /\ j * T1 * (T1 + T2) <= v /\ j * T1 * (T1 + T2) * (2 * T1 + T2 + 2 * T4) = d.
Proof.
  intros j a v d J A V D.
  assert (X : 0 < 32 * d / j) by (apply Rmult_lt_0_compat; [lra|apply Rinv_0_lt_compat; exact J]).
  destruct (cbrt_cube _ X) as (CP & CC).
  unfold phases. set (Ta := a / j). set (Tv := sqrt (v / j)). set (Tp := cbrt (32 * d / j) / 4) in *.
  assert (TA : 0 < Ta /\ j * Ta = a) by (unfold Ta; split; [apply Rmult_lt_0_compat; [lra|apply Rinv_0_lt_compat; exact J]|field; lra]).
  assert (VJ : 0 < v / j) by (apply Rmult_lt_0_compat; [lra|apply Rinv_0_lt_compat; exact J]).
  assert (TV : 0 < Tv /\ j * (Tv * Tv) = v).
  { unfold Tv. split; [apply sqrt_lt_R0; exact VJ|]. rewrite sqrt_sqrt by lra. field. lra. }
  assert (TP : 0 < Tp /\ 2 * j * Tp ^ 3 = d).
  { unfold Tp. split; [lra|].
    replace (2 * j * (cbrt (32 * d / j) / 4) ^ 3) with (j / 32 * cbrt (32 * d / j) ^ 3) by field. rewrite CC. field. lra. }
  clearbody Ta Tv Tp. clear X CP CC VJ.
  destruct TA as (TA0 & TA), TV as (TV0 & TV), TP as (TP0 & TP).
  set (T1 := Rmin (Rmin Ta Tv) Tp).
  assert (L1 : T1 <= Ta) by (unfold T1; eapply Rle_trans; [apply Rmin_l|apply Rmin_l]).
  assert (L2 : T1 <= Tv) by (unfold T1; eapply Rle_trans; [apply Rmin_l|apply Rmin_r]).
  assert (L3 : T1 <= Tp) by (unfold T1; apply Rmin_r).
  assert (P1 : 0 < T1) by (unfold T1; repeat apply Rmin_glb_lt; assumption).
  assert (C : T1 = Ta \/ T1 = Tv \/ T1 = Tp).
  { unfold T1, Rmin. destruct (Rle_dec Ta Tv); destruct (Rle_dec _ Tp); auto. }
  clearbody T1.
  assert (JA : j * T1 <= a) by (rewrite <- TA; nra).
  assert (JV : j * (T1 * T1) <= v) by (rewrite <- TV; assert (T1 * T1 <= Tv * Tv) by nra; nra).
  assert (JD : 2 * j * T1 ^ 3 <= d) by (rewrite <- TP; pose proof (cube_mono T1 Tp ltac:(lra) L3); nra).
  destruct (Req_EM_T T1 Tp) as [E3|N3].
  { repeat split; try lra. rewrite <- TP, E3. ring. }
  destruct (Req_EM_T T1 Tv) as [E2|N2].
  { assert (JV' : j * (T1 * T1) = v) by (rewrite E2; exact TV).
    assert (T4 : 0 <= (d / 2 - j * T1 ^ 3) / v).
    { apply Rmult_le_pos; [lra|left; apply Rinv_0_lt_compat; exact V]. }
    repeat split; try lra.
    replace (j * T1 * (T1 + 0) * (2 * T1 + 0 + 2 * ((d / 2 - j * T1 ^ 3) / v)))
      with (2 * j * T1 ^ 3 + j * (T1 * T1) * (2 * ((d / 2 - j * T1 ^ 3) / v))) by ring.
    rewrite JV'. field. lra. }
  assert (E1 : T1 = Ta) by (destruct C as [C|[C|C]]; [exact C|contradiction|contradiction]).
  assert (JA' : j * T1 = a) by (rewrite E1; exact TA).
  assert (TJ : T1 = a / j) by (apply (Rmult_eq_reg_l j); [rewrite JA'; field|]; lra).
  set (S := sqrt (a * (a ^ 3 + 4 * d * j ^ 2) / 4)).
  set (T2p := (2 * S - 3 * a ^ 2) / (2 * a * j)).
  set (T2v := (- a ^ 2 / j + v) / a).
  assert (AJ : 0 < a * j) by nra.
  assert (S2 : S * S = a * (a ^ 3 + 4 * d * j ^ 2) / 4).
  { unfold S. apply sqrt_sqrt. assert (0 < a ^ 3) by (apply pow_lt; exact A). assert (0 < j ^ 2) by (apply pow_lt; exact J).
    assert (0 < d * j ^ 2) by (apply Rmult_lt_0_compat; assumption).
    assert (0 < a * (a ^ 3 + 4 * d * j ^ 2)) by (apply Rmult_lt_0_compat; lra). lra. }
  assert (S0 : 0 <= S) by apply sqrt_pos. clearbody S.
  assert (DJ : 2 * a ^ 3 <= d * j ^ 2).
  { rewrite <- JA'. replace (2 * (j * T1) ^ 3) with (2 * j * T1 ^ 3 * j ^ 2) by ring. apply Rmult_le_compat_r; [|exact JD]. left. apply pow_lt. exact J. }
  assert (SB : 3 * a ^ 2 <= 2 * S).
  { apply Rnot_lt_le. intros K. assert (KK : (2 * S) * (2 * S) < (3 * a ^ 2) * (3 * a ^ 2)) by nra.
    replace ((2 * S) * (2 * S)) with (4 * (S * S)) in KK by ring. rewrite S2 in KK.
    assert (a * (2 * a ^ 3) <= a * (d * j ^ 2)) by nra. nra. }
  assert (P2p : 0 <= T2p).
  { unfold T2p. apply Rmult_le_pos; [lra|]. left. apply Rinv_0_lt_compat. nra. }
  assert (P2v : 0 <= T2v).
  { unfold T2v. apply Rmult_le_pos; [|left; apply Rinv_0_lt_compat; exact A].
    assert (a ^ 2 / j <= v); [|unfold Rdiv in *; lra].
    apply (Rmult_le_reg_r j); [exact J|]. replace (a ^ 2 / j * j) with (a * a) by (field; lra).
    rewrite <- JA'. replace (j * T1 * (j * T1)) with (j * (T1 * T1) * j) by ring. nra. }
  assert (Qp : j * T1 * (T1 + T2p) * (2 * T1 + T2p) = d).
  { rewrite JA'. assert (F : T2p = S / (a * j) - 3 / 2 * T1) by (unfold T2p; rewrite TJ; field; lra).
    rewrite F.
    replace (a * (T1 + (S / (a * j) - 3 / 2 * T1)) * (2 * T1 + (S / (a * j) - 3 / 2 * T1)))
      with (a * ((S * S) / ((a * j) * (a * j)) - T1 * T1 / 4)) by (field; lra).
    rewrite S2, TJ. field. lra. }
  assert (Vv : j * T1 * (T1 + T2v) = v) by (unfold T2v; rewrite JA', TJ; field; lra).
  clearbody T2p.
  destruct (Req_EM_T (Rmin T2v T2p) T2v) as [E|N].
  - rewrite E. assert (LE : T2v <= T2p) by (rewrite <- E; apply Rmin_r).
    assert (LD : v * (2 * T1 + T2v) <= d).
    { rewrite <- Vv at 1. rewrite <- Qp. rewrite JA'. apply Rmult_le_compat; try lra; try nra. }
    assert (F2 : 2 * T1 + T2v = a / j + v / a) by (unfold T2v; rewrite TJ; field; lra).
    rewrite F2 in LD.
    assert (DD : a ^ 2 * v + j * v ^ 2 <= j * d * a).
    { replace (a ^ 2 * v + j * v ^ 2) with (v * (a / j + v / a) * (a * j)) by (field; lra).
      replace (j * d * a) with (d * (a * j)) by ring. apply Rmult_le_compat_r; lra. }
    assert (T4 : 0 <= - (a ^ 2 * v - j * d * a + j * v ^ 2) / (2 * a * j * v)).
    { apply Rmult_le_pos; [lra|]. left. apply Rinv_0_lt_compat. assert (0 < a * j * v) by nra. lra. }
    repeat split; try lra.
    rewrite Vv.
    replace (2 * T1 + T2v + 2 * (- (a ^ 2 * v - j * d * a + j * v ^ 2) / (2 * a * j * v)))
      with (a / j + v / a + 2 * (- (a ^ 2 * v - j * d * a + j * v ^ 2) / (2 * a * j * v))) by lra.
    field. lra.
  - assert (E : Rmin T2v T2p = T2p /\ T2p <= T2v).
    { unfold Rmin in *. destruct (Rle_dec T2v T2p); [contradiction|lra]. }
    destruct E as (E & LE). rewrite E. repeat split; try lra.
    + rewrite <- Vv. apply Rmult_le_compat_l; [lra|lra].
Qed.

Lemma motion_profile : forall j a v d, 0 < j -> 0 < a -> 0 < v -> 0 < d ->
  let '(T1, T2, T4) := phases j a v d in
  profile (eight j T1 T2 T4) (0, 0, 0) = (d, 0, 0) /\ within v a (eight j T1 T2 T4) (0, 0, 0) /\ motion_time j a v d = fold_right Rplus 0 (map snd (eight j T1 T2 T4)).
Proof.
  intros j a v d J A V D. pose proof (phases_ok j a v d J A V D) as P. unfold motion_time.
  destruct (phases j a v d) as [[T1 T2] T4]. destruct P as (P1 & P2 & P4 & PA & PV & PD).
  split; [rewrite eight_profile, PD; reflexivity|]. split; [apply eight_within; try assumption; lra|].
  unfold eight. cbn [map snd fold_right]. ring.
Qed.
