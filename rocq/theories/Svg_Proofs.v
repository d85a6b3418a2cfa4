(** Proofs about the circle through three points (Svg_Model.v, centre). *)
From Coq Require Import Reals List Bool Lra Psatz.
From Verif Require Import Svg_Model Svg_Spec.
Import ListNotations.
Local Open Scope R_scope.

Lemma reqb_spec : forall a b, reflect (a = b) (reqb a b).
Proof. intros a b. unfold reqb. destruct (Req_EM_T a b); constructor; assumption. Qed.
Lemma rltb_spec : forall a b, reflect (a < b) (rltb a b).
Proof. intros a b. unfold rltb. destruct (Rlt_dec a b); constructor; assumption. Qed.

Lemma reqb_eq : forall a b, a = b -> reqb a b = true.
Proof. intros a b E. destruct (reqb_spec a b); [reflexivity|contradiction]. Qed.
Lemma reqb_ne : forall a b, a <> b -> reqb a b = false.
Proof. intros a b E. destruct (reqb_spec a b); [contradiction|reflexivity]. Qed.

Lemma div_ne0 : forall a b, a <> 0 -> b <> 0 -> a / b <> 0.
Proof. intros a b A B. unfold Rdiv. apply Rmult_integral_contrapositive_currified; [exact A|apply Rinv_neq_0_compat, B]. Qed.

Lemma normal_ok : forall a b, oblique a b -> normal a b = Ok (- ((fst b - fst a) / (snd b - snd a))).
Proof.
  intros [ax ay] [bx by_] [X Y]. cbn in X, Y. unfold normal, pdiv. cbn.
  rewrite reqb_ne by lra. cbn. rewrite reqb_ne by (apply div_ne0; lra). f_equal. field. split; lra.
Qed.

Section general.
Variables (p1 p2 p3 : pt).
Hypothesis (O1 : oblique p1 p2) (O2 : oblique p2 p3).
Let n1 := - ((fst p2 - fst p1) / (snd p2 - snd p1)).
Let n2 := - ((fst p3 - fst p2) / (snd p3 - snd p2)).

Lemma centre_unfold : centre p1 p2 p3 =
  if reqb n2 n1 then RuntimeError else
  let cx := (snd (middle p1 p2) - snd (middle p2 p3) - n1 * fst (middle p1 p2) + n2 * fst (middle p2 p3)) / (n2 - n1) in
  Ok (cx, snd (middle p1 p2) + n1 * (cx - fst (middle p1 p2))).
Proof.
  destruct O1 as [A B], O2 as [C D]. unfold centre.
  rewrite (reqb_ne (fst p1) (fst p2)), (reqb_ne (snd p1) (snd p2)), (reqb_ne (fst p2) (fst p1)), (reqb_ne (snd p2) (snd p1)),
    (reqb_ne (fst p2) (fst p3)), (reqb_ne (snd p2) (snd p3)) by (assumption || (apply not_eq_sym; assumption)).
  cbv beta iota zeta delta [andb]. rewrite !normal_ok by assumption. reflexivity.
Qed.

Lemma normals_equal : n2 = n1 <-> collinear p1 p2 p3.
Proof.
  destruct p1 as [x1 y1], p2 as [x2 y2], p3 as [x3 y3]. destruct O1 as [A B], O2 as [C D]. cbn in *.
  unfold n1, n2, collinear, cross; cbn. split; intro H.
  - assert (E : (x3 - x2) * (y2 - y1) = (x2 - x1) * (y3 - y2)).
    { assert (E : (x3 - x2) / (y3 - y2) = (x2 - x1) / (y2 - y1)) by lra.
      replace (x3 - x2) with ((x3 - x2) / (y3 - y2) * (y3 - y2)) by (field; lra). rewrite E. field. lra. }
    lra.
  - replace (x3 - x2) with ((x2 - x1) * (y3 - y2) / (y2 - y1)). { field. split; lra. }
    replace ((x2 - x1) * (y3 - y2)) with ((y2 - y1) * (x3 - x2)) by lra. field. lra.
Qed.
End general.

Lemma centre_collinear : forall p1 p2 p3, oblique p1 p2 -> oblique p2 p3 -> collinear p1 p2 p3 ->
  centre p1 p2 p3 = RuntimeError.
Proof. intros p1 p2 p3 A B C. rewrite centre_unfold by assumption. rewrite reqb_eq; [reflexivity|]. apply normals_equal; assumption. Qed.

Lemma centre_general : forall p1 p2 p3, oblique p1 p2 -> oblique p2 p3 -> ~ collinear p1 p2 p3 ->
  exists c, centre p1 p2 p3 = Ok c /\ equidistant c p1 p2 p3.
Proof.
  intros p1 p2 p3 A B C. rewrite centre_unfold by assumption.
  rewrite reqb_ne by (intro H; apply C; apply (proj1 (normals_equal p1 p2 p3 A B) H)).
  eexists. split; [reflexivity|].
  destruct p1 as [x1 y1], p2 as [x2 y2], p3 as [x3 y3]. destruct A as [A1 A2], B as [B1 B2]. cbn in A1, A2, B1, B2.
  unfold collinear, cross in C; cbn in C.
  assert (D : y1 * x2 - y1 * x3 + y2 * x3 - y2 * x1 + y3 * x1 - y3 * x2 <> 0) by (intro; apply C; lra).
  unfold equidistant, d2, Rsqr, middle; cbn. split; field; (split; [lra|split; [lra|]]); intro Z; apply D; lra.
Qed.

(* the centre of a circle through three points that are not in line is unique *)
Lemma equidistant_unique : forall p1 p2 p3 c d, ~ collinear p1 p2 p3 -> equidistant c p1 p2 p3 -> equidistant d p1 p2 p3 -> c = d.
Proof.
  intros [x1 y1] [x2 y2] [x3 y3] [a b] [a' b'] N [E1 E2] [F1 F2]. unfold collinear, cross in N; cbn in N.
  unfold d2, Rsqr in *; cbn in *.
  assert (L1 : (a - a') * (x2 - x1) + (b - b') * (y2 - y1) = 0) by lra.
  assert (L2 : (a - a') * (x3 - x2) + (b - b') * (y3 - y2) = 0) by lra.
  set (D := (x2 - x1) * (y3 - y2) - (y2 - y1) * (x3 - x2)) in *.
  assert (Z1 : (a - a') * D = 0).
  { replace ((a - a') * D) with (((a - a') * (x2 - x1) + (b - b') * (y2 - y1)) * (y3 - y2) - ((a - a') * (x3 - x2) + (b - b') * (y3 - y2)) * (y2 - y1)) by (unfold D; ring).
    rewrite L1, L2. ring. }
  assert (Z2 : (b - b') * D = 0).
  { replace ((b - b') * D) with (((a - a') * (x3 - x2) + (b - b') * (y3 - y2)) * (x2 - x1) - ((a - a') * (x2 - x1) + (b - b') * (y2 - y1)) * (x3 - x2)) by (unfold D; ring).
    rewrite L1, L2. ring. }
  apply Rmult_integral in Z1. apply Rmult_integral in Z2. f_equal; lra.
Qed.

(* hence a circle drawn through the three points is found again *)
Lemma centre_recovers : forall o r p1 p2 p3, oblique p1 p2 -> oblique p2 p3 -> p1 <> p3 ->
  d2 o p1 = r -> d2 o p2 = r -> d2 o p3 = r -> centre p1 p2 p3 = Ok o.
Proof.
  intros o r p1 p2 p3 A B N E1 E2 E3.
  assert (C : ~ collinear p1 p2 p3).
  { destruct p1 as [x1 y1], p2 as [x2 y2], p3 as [x3 y3], o as [a b]. destruct A as [A1 A2], B as [B1 B2]. cbn in *.
    unfold collinear, cross, d2, Rsqr in *; cbn in *. intro Z.
    assert (L1 : (2 * a - x1 - x2) * (x2 - x1) + (2 * b - y1 - y2) * (y2 - y1) = 0) by lra.
    assert (L2 : (2 * a - x2 - x3) * (x3 - x2) + (2 * b - y2 - y3) * (y3 - y2) = 0) by lra.
    (* x3 - x2 = k (x2 - x1), y3 - y2 = k (y2 - y1) *)
    set (k := (x3 - x2) / (x2 - x1)).
    assert (K1 : x3 - x2 = k * (x2 - x1)) by (unfold k; field; lra).
    assert (K2 : y3 - y2 = k * (y2 - y1)).
    { unfold k. apply Rmult_eq_reg_l with (x2 - x1); [|lra]. transitivity ((y2 - y1) * (x3 - x2)); [lra|]. field. lra. }
    assert (K0 : k <> 0) by (intro Z0; rewrite Z0 in K1; lra).
    assert (X3 : x3 = x2 + k * (x2 - x1)) by lra. assert (Y3 : y3 = y2 + k * (y2 - y1)) by lra.
    assert (M : k * ((2 * a - x2 - x3) * (x2 - x1) + (2 * b - y2 - y3) * (y2 - y1)) = 0).
    { replace 0 with ((2 * a - x2 - x3) * (x3 - x2) + (2 * b - y2 - y3) * (y3 - y2)) by exact L2. rewrite K1, K2. ring. }
    apply Rmult_integral in M. destruct M as [M|M]; [contradiction|].
    assert (S : (x3 - x1) * (x2 - x1) + (y3 - y1) * (y2 - y1) = 0) by lra.
    assert (S2 : (1 + k) * ((x2 - x1) * (x2 - x1) + (y2 - y1) * (y2 - y1)) = 0).
    { rewrite <- S. rewrite X3, Y3. ring. }
    apply Rmult_integral in S2. destruct S2 as [S2|S2].
    - apply N. f_equal; [rewrite X3|rewrite Y3]; replace k with (-1) by lra; ring.
    - assert (0 < (x2 - x1) * (x2 - x1)) by (apply Rlt_0_sqr; lra). pose proof (Rle_0_sqr (y2 - y1)) as Q. unfold Rsqr in Q. lra. }
  destruct (centre_general p1 p2 p3 A B C) as (c & Ec & Q). rewrite Ec. f_equal.
  apply (equidistant_unique p1 p2 p3); [exact C|exact Q|]. split; congruence.
Qed.

(* ---- the special cases ------------------------------------------------- *)

(* a corner: the reported centre is the corner itself *)
Lemma centre_corner : forall p1 p2 p3,
  (fst p1 = fst p2 /\ snd p2 = snd p3) \/ (snd p1 = snd p2 /\ fst p2 = fst p3) -> centre p1 p2 p3 = Ok p2.
Proof.
  intros [x1 y1] [x2 y2] [x3 y3] H. cbn in H. unfold centre, middle. cbn.
  destruct (reqb_spec x1 x2) as [X|X], (reqb_spec y2 y3) as [Y|Y]; cbn.
  1: { f_equal. f_equal; lra. }
  all: destruct H as [[? ?]|[H1 H2]]; try contradiction; try lra.
  all: rewrite (reqb_eq y1 y2 H1), (reqb_eq x2 x3 H2); cbn; f_equal; f_equal; lra.
Qed.

(* a vertical chord next to an oblique one is not handled at all *)
Lemma centre_vertical : forall p1 p2 p3,
  (fst p1 = fst p2 /\ oblique p2 p3) \/ (oblique p1 p2 /\ fst p2 = fst p3) -> centre p1 p2 p3 = NameError.
Proof.
  intros p1 p2 p3 H. unfold centre. destruct H as [[X O]|[O X]].
  - rewrite (reqb_eq (fst p1) (fst p2) X), (reqb_eq (fst p2) (fst p1) (eq_sym X)).
    destruct O as [O1 O2]. rewrite (reqb_ne (snd p2) (snd p3) O2), (reqb_ne (fst p2) (fst p3) O1).
    rewrite (andb_false_r (reqb (snd p1) (snd p2))). cbn [andb]. rewrite normal_ok by (split; assumption). reflexivity.
  - pose proof O as [O1 O2]. rewrite (reqb_ne (fst p1) (fst p2) O1), (reqb_ne (snd p1) (snd p2) O2).
    rewrite (reqb_ne (fst p2) (fst p1)), (reqb_ne (snd p2) (snd p1)) by (apply not_eq_sym; assumption).
    rewrite (reqb_eq (fst p2) (fst p3) X). cbn [andb]. rewrite normal_ok by exact O. reflexivity.
Qed.

(* a horizontal chord next to an oblique one: the reported centre is on the
   chord, so it is right only when that chord is a diameter *)
Lemma centre_horizontal1 : forall p1 p2 p3, snd p1 = snd p2 -> fst p1 <> fst p2 -> oblique p2 p3 ->
  exists c, centre p1 p2 p3 = Ok c /\ d2 c p2 = d2 c p3 /\ snd c = snd p1 /\
    (equidistant c p1 p2 p3 <-> dot (psub p3 p1) (psub p3 p2) = 0).
Proof.
  intros [x1 y1] [x2 y2] [x3 y3] Y X O. pose proof O as [O1 O2]. cbn in X, Y, O1, O2. subst y2. unfold centre.
  cbn [fst snd middle].
  rewrite (reqb_ne x1 x2 X), (reqb_ne x2 x3 O1), (reqb_ne x2 x1 (not_eq_sym X)), !(reqb_eq y1 y1 eq_refl).
  cbn [andb]. rewrite normal_ok by (split; assumption). cbn [bind fst snd]. unfold pdiv.
  assert (Q : - ((x3 - x2) / (y3 - y1)) <> 0).
  { intro Z. apply (div_ne0 (x3 - x2) (y3 - y1)); lra. }
  rewrite reqb_ne by exact Q. cbn [bind].
  eexists. split; [reflexivity|].
  set (c0 := ((y1 + y1) * (1 / 2) - (y3 + y1) * (1 / 2)) / - ((x3 - x2) / (y3 - y1)) + (x3 + x2) * (1 / 2)).
  assert (C : 2 * c0 * (x3 - x2) = (y3 - y1) * (y3 - y1) + (x3 - x2) * (x3 + x2)).
  { unfold c0. field. split; lra. }
  assert (D23 : d2 (c0, (y1 + y1) * (1 / 2)) (x2, y1) = d2 (c0, (y1 + y1) * (1 / 2)) (x3, y3)).
  { unfold d2, Rsqr; cbn [fst snd]. lra. }
  split; [exact D23|]. split; [cbn; lra|].
  unfold equidistant, dot, psub; cbn [fst snd]. split.
  - intros [E _]. unfold d2, Rsqr in E; cbn [fst snd] in E.
    assert (E' : (x2 - x1) * (2 * c0 - x1 - x2) = 0) by lra.
    apply Rmult_integral in E'. destruct E' as [E'|E']; [lra|].
    assert (C2 : (x1 + x2) * (x3 - x2) = (y3 - y1) * (y3 - y1) + (x3 - x2) * (x3 + x2)) by (rewrite <- C; replace (2 * c0) with (x1 + x2) by lra; ring).
    lra.
  - intro E. split; [|exact D23].
    assert (C2 : (2 * c0 - x1 - x2) * (x3 - x2) = 0) by lra.
    apply Rmult_integral in C2. destruct C2 as [C2|C2]; [|lra].
    unfold d2, Rsqr; cbn [fst snd]. replace c0 with ((x1 + x2) / 2) by lra. field.
Qed.

Lemma centre_horizontal2 : forall p1 p2 p3, oblique p1 p2 -> snd p2 = snd p3 -> fst p2 <> fst p3 ->
  exists c, centre p1 p2 p3 = Ok c /\ d2 c p1 = d2 c p2 /\ snd c = snd p3 /\
    (equidistant c p1 p2 p3 <-> dot (psub p1 p2) (psub p1 p3) = 0).
Proof.
  intros [x1 y1] [x2 y2] [x3 y3] O Y X. pose proof O as [O1 O2]. cbn in X, Y, O1, O2. subst y3. unfold centre.
  cbn [fst snd middle].
  rewrite (reqb_ne x1 x2 O1), (reqb_ne y1 y2 O2), (reqb_ne x2 x1), (reqb_ne y2 y1) by (apply not_eq_sym; assumption).
  rewrite (reqb_ne x2 x3 X), (reqb_eq y2 y2 eq_refl).
  cbn [andb]. rewrite normal_ok by (split; assumption). cbn [bind fst snd]. unfold pdiv.
  assert (Q : - ((x2 - x1) / (y2 - y1)) <> 0).
  { intro Z. apply (div_ne0 (x2 - x1) (y2 - y1)); lra. }
  rewrite reqb_ne by exact Q. cbn [bind].
  eexists. split; [reflexivity|].
  set (c0 := ((y2 + y2) * (1 / 2) - (y2 + y1) * (1 / 2)) / - ((x2 - x1) / (y2 - y1)) + (x2 + x1) * (1 / 2)).
  assert (C : 2 * c0 * (x2 - x1) = - (y2 - y1) * (y2 - y1) + (x2 - x1) * (x2 + x1)).
  { unfold c0. field. split; lra. }
  assert (D12 : d2 (c0, (y2 + y2) * (1 / 2)) (x1, y1) = d2 (c0, (y2 + y2) * (1 / 2)) (x2, y2)).
  { unfold d2, Rsqr; cbn [fst snd]. lra. }
  split; [exact D12|]. split; [cbn; lra|].
  unfold equidistant, dot, psub; cbn [fst snd]. split.
  - intros [_ E]. unfold d2, Rsqr in E; cbn [fst snd] in E.
    assert (E' : (x3 - x2) * (2 * c0 - x3 - x2) = 0) by lra.
    apply Rmult_integral in E'. destruct E' as [E'|E']; [lra|].
    assert (C2 : (x3 + x2) * (x2 - x1) = - (y2 - y1) * (y2 - y1) + (x2 - x1) * (x2 + x1)) by (rewrite <- C; replace (2 * c0) with (x3 + x2) by lra; ring).
    lra.
  - intro E. split; [exact D12|].
    assert (C2 : (2 * c0 - x3 - x2) * (x2 - x1) = 0) by lra.
    apply Rmult_integral in C2. destruct C2 as [C2|C2]; [|lra].
    unfold d2, Rsqr; cbn [fst snd]. replace c0 with ((x3 + x2) / 2) by lra. field.
Qed.

(* three points in line along an axis *)
Lemma centre_inline : forall p1 p2 p3,
  (fst p1 = fst p2 /\ fst p2 = fst p3 /\ snd p1 <> snd p2 /\ snd p2 <> snd p3) \/
  (snd p1 = snd p2 /\ snd p2 = snd p3 /\ fst p1 <> fst p2 /\ fst p2 <> fst p3) -> centre p1 p2 p3 = ZeroDivisionError.
Proof.
  intros [x1 y1] [x2 y2] [x3 y3] H. cbn in H. unfold centre, normal, pdiv. cbn [fst snd middle].
  destruct H as [(A & B & C & D)|(A & B & C & D)]; subst.
  - rewrite (reqb_ne y2 y3 D), (reqb_ne y1 y2 C), !(reqb_eq x3 x3 eq_refl). cbn [andb].
    rewrite (reqb_eq (x3 - x3) 0) by lra. reflexivity.
  - rewrite (reqb_ne x1 x2 C), (reqb_ne x2 x3 D), (reqb_ne x2 x1 (not_eq_sym C)), !(reqb_eq y3 y3 eq_refl). cbn [andb].
    rewrite (reqb_ne (x3 - x2) 0) by lra. cbn [bind]. rewrite (reqb_eq ((y3 - y3) / (x3 - x2)) 0); [reflexivity|]. field. lra.
Qed.
