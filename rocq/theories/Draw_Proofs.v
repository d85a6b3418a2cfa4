(* Convex hulls under affine maps; regular polygons are the intersection of
   their half planes; boxes and prisms. *)
Require Import Reals List Lra Lia Psatz ZArith.
From Verif Require Import Geom_Model Geom_Spec Geom_Proofs Geom_Proofs2 Geom_Proofs3 Geom_Proofs4.
From Verif Require Import Angle_Model Angle_Proofs Draw_Model Draw_Spec.
Import ListNotations.
Open Scope R_scope.

(* ---------- hulls ---------- *)
Definition affine (f : P2 -> P2) : Prop := forall s p q, f (between s p q) = between s (f p) (f q).
Definition affine3 (f : P3 -> P3) : Prop := forall s p q, f (between3 s p q) = between3 s (f p) (f q).

Lemma hull_affine : forall f vs x, affine f -> hull vs x -> hull (map f vs) (f x).
Proof.
  intros f vs x A H. induction H as [v V | s p q S P IP Q IQ].
  - apply hull_vertex. apply in_map. exact V.
  - rewrite A. apply hull_mix; assumption.
Qed.
Lemma hull_affine_inv : forall f vs x, affine f -> hull (map f vs) x -> exists y, hull vs y /\ x = f y.
Proof.
  intros f vs x A H. induction H as [v V | s p q S P IP Q IQ].
  - apply in_map_iff in V. destruct V as (y & E & Y). exists y. split; [apply hull_vertex; exact Y|auto].
  - destruct IP as (y & Y & E). destruct IQ as (z & Z & F). exists (between s y z).
    split; [apply hull_mix; assumption|]. rewrite A, E, F. reflexivity.
Qed.
Lemma hull_incl : forall us vs x, (forall v, In v us -> hull vs v) -> hull us x -> hull vs x.
Proof.
  intros us vs x H U. induction U as [v V | s p q S P IP Q IQ]; [auto|]. apply hull_mix; assumption.
Qed.
Lemma hull3_affine : forall f vs x, affine3 f -> hull3 vs x -> hull3 (map f vs) (f x).
Proof.
  intros f vs x A H. induction H as [v V | s p q S P IP Q IQ].
  - apply hull3_vertex. apply in_map. exact V.
  - change (hull3 (map f vs) (f (between3 s p q))). rewrite A. apply hull3_mix; assumption.
Qed.
Lemma hull3_affine_inv : forall f vs x, affine3 f -> hull3 (map f vs) x -> exists y, hull3 vs y /\ x = f y.
Proof.
  intros f vs x A H. induction H as [v V | s p q S P IP Q IQ].
  - apply in_map_iff in V. destruct V as (y & E & Y). exists y. split; [apply hull3_vertex; exact Y|auto].
  - destruct IP as (y & Y & E). destruct IQ as (z & Z & F). exists (between3 s y z).
    split; [apply hull3_mix; assumption|]. rewrite A, E, F. reflexivity.
Qed.
Lemma hull3_incl : forall us vs x, (forall v, In v us -> hull3 vs v) -> hull3 us x -> hull3 vs x.
Proof.
  intros us vs x H U. induction U as [v V | s p q S P IP Q IQ]; [auto|]. apply hull3_mix; assumption.
Qed.

Lemma turned_affine : forall th, affine (turned th).
Proof. intros th s p q. unfold turned, between. cbn [fst snd]. f_equal; ring. Qed.
Lemma moved_affine : forall d, affine (moved d).
Proof. intros d s p q. unfold moved, between. cbn [fst snd]. f_equal; ring. Qed.
Lemma rotate_affine : forall th, affine (rotate th).
Proof. intros th s p q. unfold rotate, between. cbn [fst snd]. f_equal; ring. Qed.
Lemma placed_affine : forall p th, affine (placed p th).
Proof. intros p th s x y. unfold placed. rewrite turned_affine, moved_affine. reflexivity. Qed.
Lemma rot3_turn3 : forall o v, rot3 o v = turn3 o v.
Proof. intros ((a & b) & c) v. unfold rot3, turn3. cbn [fst snd]. apply rotate3_turns. Qed.
Lemma turn3_affine : forall o, affine3 (turn3 o).
Proof.
  intros ((a & b) & c) s ((p1 & p2) & p3) ((q1 & q2) & q3). unfold turn3, turn_x, turn_y, turn_z, between3.
  cbn [fst snd]. f_equal; [f_equal|]; ring.
Qed.
Lemma plus3_affine : forall d, affine3 (plus3 d).
Proof.
  intros ((a & b) & c) s ((p1 & p2) & p3) ((q1 & q2) & q3). unfold plus3, between3.
  cbn [fst snd]. f_equal; [f_equal|]; ring.
Qed.
Lemma placed3_affine : forall p o, affine3 (placed3 p o).
Proof. intros p o s x y. unfold placed3. rewrite turn3_affine, plus3_affine. reflexivity. Qed.

(* a triangle with the origin, given by conic coordinates *)
Lemma hull_cone : forall vs v w a b, hull vs (0, 0) -> hull vs v -> hull vs w ->
  0 <= a -> 0 <= b -> a + b <= 1 -> hull vs (a * fst v + b * fst w, a * snd v + b * snd w).
Proof.
  intros vs v w a b Z V W A B L. destruct (Req_dec (a + b) 0) as [E|N].
  - assert (a = 0) by lra. assert (b = 0) by lra. subst. replace (0 * fst v + 0 * fst w, 0 * snd v + 0 * snd w) with (0, 0).
    exact Z. f_equal; ring.
  - replace (a * fst v + b * fst w, a * snd v + b * snd w)
      with (between (a + b) (0, 0) (between (b / (a + b)) v w)).
    + apply hull_mix; [lra|exact Z|]. apply hull_mix; [|exact V|exact W].
      split; [apply Rmult_le_pos; [exact B|left; apply Rinv_0_lt_compat; lra]|].
      apply (Rmult_le_reg_r (a + b)); [lra|]. unfold Rdiv. rewrite Rmult_assoc, Rinv_l by lra. lra.
    + unfold between. cbn [fst snd]. f_equal; field; exact N.
Qed.

(* ---------- centre of a list of points ---------- *)
Definition sum_pts (vs : list P2) : P2 := fold_right (fun v a => (fst v + fst a, snd v + snd a)) (0, 0) vs.
Lemma hull_centre : forall us vs, us <> [] -> (forall v, In v us -> hull vs v) ->
  hull vs (fst (sum_pts us) / INR (length us), snd (sum_pts us) / INR (length us)).
Proof.
  induction us as [|u us IH]; intros vs N H; [congruence|]. destruct us as [|u' us'].
  - cbn. replace ((fst u + 0) / 1, (snd u + 0) / 1) with u; [apply H; left; reflexivity|].
    destruct u. cbn. f_equal; field.
  - assert (C : hull vs (fst (sum_pts (u' :: us')) / INR (length (u' :: us')),
                         snd (sum_pts (u' :: us')) / INR (length (u' :: us')))).
    { apply IH; [discriminate|]. intros v V. apply H. right; exact V. }
    set (w := sum_pts (u' :: us')) in *. set (n := length (u' :: us')) in *.
    assert (NP : 0 < INR n) by (apply lt_0_INR; subst n; cbn; lia).
    change (sum_pts (u :: u' :: us')) with (fst u + fst w, snd u + snd w).
    change (length (u :: u' :: us')) with (S n). rewrite S_INR. cbn [fst snd].
    assert (U : hull vs u) by (apply H; left; reflexivity).
    assert (J : 0 <= / (INR n + 1) <= 1).
    { split; [left; apply Rinv_0_lt_compat; lra|]. pose proof (Rinv_le_contravar 1 (INR n + 1) ltac:(lra) ltac:(lra)) as Q.
      rewrite Rinv_1 in Q. exact Q. }
    pose proof (hull_mix vs _ _ _ J C U) as M.
    unfold between in M. cbn [fst snd] in M.
    match type of M with hull _ ?p => replace (_ , _) with p; [exact M|] end.
    f_equal; field; lra.
Qed.

(* ---------- regular polygons ---------- *)
Definition nv (r : R) (n l : nat) : P2 :=
  (r * sin (INR (2 * l + 1) * PI / INR n), r * cos (INR (2 * l + 1) * PI / INR n)).
Lemma regular_vertices_eq : forall r n, (3 <= n)%nat -> regular_vertices r n = map (nv r n) (seq 0 n).
Proof.
  intros r n N. apply nth_ext with (d := (0, 0)) (d' := (0, 0)).
  - rewrite regular_length, map_length, seq_length. reflexivity.
  - intros k K. rewrite regular_length in K. pose proof (regular_vertex r n k N K) as E.
    apply nth_error_nth with (d := (0, 0)) in E. rewrite E.
    symmetry. apply nth_error_nth. rewrite nth_error_map.
    rewrite (nth_error_nth' (seq 0 n) 0%nat) by (rewrite seq_length; lia). rewrite seq_nth by lia. reflexivity.
Qed.
Lemma sum_pts_app : forall us vs, sum_pts (us ++ vs) =
  (fst (sum_pts us) + fst (sum_pts vs), snd (sum_pts us) + snd (sum_pts vs)).
Proof.
  induction us as [|u us IH]; intros vs.
  - cbn [app]. change (sum_pts []) with ((0, 0) : P2). destruct (sum_pts vs) as (a & b). cbn [fst snd]. f_equal; ring.
  - change (sum_pts ((u :: us) ++ vs)) with (fst u + fst (sum_pts (us ++ vs)), snd u + snd (sum_pts (us ++ vs))).
    rewrite IH. change (sum_pts (u :: us)) with (fst u + fst (sum_pts us), snd u + snd (sum_pts us)).
    cbn [fst snd]. f_equal; ring.
Qed.
Lemma sum_ngon : forall r n k, (0 < n)%nat ->
  2 * sin (PI / INR n) * fst (sum_pts (map (nv r n) (seq 0 k))) = r * (1 - cos (INR (2 * k) * PI / INR n)) /\
  2 * sin (PI / INR n) * snd (sum_pts (map (nv r n) (seq 0 k))) = r * sin (INR (2 * k) * PI / INR n).
Proof.
  intros r n k N. assert (P : 0 < INR n) by (apply lt_0_INR; exact N). induction k as [|k IH].
  - cbn. replace (0 * PI / INR n) with 0 by (field; lra). rewrite cos_0, sin_0. lra.
  - rewrite seq_S, map_app, sum_pts_app. change (0 + k)%nat with k.
    change (sum_pts (map (nv r n) [k])) with (fst (nv r n k) + 0, snd (nv r n k) + 0). cbn [fst snd].
    set (x := INR (2 * k + 1) * PI / INR n). set (d := PI / INR n).
    assert (E0 : INR (2 * k) * PI / INR n = x - d).
    { subst x d. rewrite plus_INR. cbn [INR]. field. lra. }
    assert (E1 : INR (2 * S k) * PI / INR n = x + d).
    { subst x d. replace (2 * S k)%nat with ((2 * k + 1) + 1)%nat by lia. rewrite (plus_INR (2 * k + 1) 1). cbn [INR]. field. lra. }
    rewrite E0 in IH. rewrite E1. fold d in IH. destruct IH as [I1 I2].
    assert (V : nv r n k = (r * sin x, r * cos x)) by reflexivity. rewrite V. cbn [fst snd].
    rewrite cos_minus in I1. rewrite sin_minus in I2. rewrite cos_plus, sin_plus.
    split; rewrite Rmult_plus_distr_l; [rewrite I1|rewrite I2]; ring.
Qed.
Lemma ngon_angle : forall n, (3 <= n)%nat -> 0 < PI / INR n <= PI / 3.
Proof.
  intros n N. pose proof PI_RGT_0. assert (3 <= INR n).
  { replace 3 with (INR 3) by (cbn; ring). apply le_INR. exact N. }
  split; [apply Rdiv_lt_0_compat; lra|]. apply Rmult_le_compat_l; [lra|]. apply Rinv_le_contravar; lra.
Qed.
Lemma ngon_centre : forall r n, (3 <= n)%nat -> hull (regular_vertices r n) (0, 0).
Proof.
  intros r n N. pose proof (ngon_angle n N) as A. pose proof PI_RGT_0.
  assert (P : 0 < INR n) by (apply lt_0_INR; lia).
  rewrite regular_vertices_eq by exact N. set (vs := map (nv r n) (seq 0 n)).
  assert (L : length vs = n) by (subst vs; rewrite map_length, seq_length; reflexivity).
  pose proof (hull_centre vs vs ltac:(intro E; rewrite E in L; cbn in L; lia) (fun v V => hull_vertex vs v V)) as C.
  destruct (sum_ngon r n n ltac:(lia)) as [S1 S2]. fold vs in S1, S2.
  replace (INR (2 * n) * PI / INR n) with (2 * PI) in S1, S2 by (rewrite mult_INR; cbn [INR]; field; lra).
  rewrite cos_2PI in S1. rewrite sin_2PI in S2.
  assert (SP : 0 < sin (PI / INR n)) by (apply sin_gt_0; lra).
  assert (E1 : fst (sum_pts vs) = 0) by nra. assert (E2 : snd (sum_pts vs) = 0) by nra.
  rewrite E1, E2 in C. unfold Rdiv in C. rewrite Rmult_0_l in C. exact C.
Qed.
