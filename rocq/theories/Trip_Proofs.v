(** Integrated positions are splines on the unit interval that move as they
    should. *)
From Coq Require Import Reals List Arith Bool ZArith Lia Lra.
From Verif Require Import Spline_Model Spline_Spec Spline_Proofs Spline_Proofs2 Spline_Proofs3 Span_Proofs2 Splop_Model Splop_Spec Splop_Proofs Splop_Proofs2
  Vehicle_Model Vehicle_Spec Vehicle_Proofs Wheel_Model Wheel_Proofs Lift_Model Lift_Spec Lift_Proofs Lift_Proofs2 Lift_Proofs4 Loop_Proofs9
  Trip_Model Trip_Spec.
Import ListNotations.
Local Open Scope R_scope.

Lemma upto_len : forall l x, (below l x + cnt l x <= length l)%nat.
Proof.
  unfold below, cnt. induction l as [|a l IH]; intros x; [cbn; lia|]. specialize (IH x). cbn [filter count_occ].
  destruct (Rltb a x) eqn:E; destruct (Req_EM_T a x) as [K|K]; cbn [length]; try lia.
  apply Rltb_true in E. lra.
Qed.

Lemma mult_le_cnt : forall b x r, nondecreasing (knots b) -> (mult_le b x r <-> (cnt (knots b) x <= r)%nat).
Proof.
  intros b x r ND. set (l := knots b) in *. split.
  - intros M. destruct (le_lt_dec (cnt l x) r) as [K|K]; [exact K|exfalso].
    pose proof (upto_len l x) as UL.
    apply (M (below l x)); fold l; [lia|]. split; apply Rle_antisym.
      * apply (sorted_upto l x _ ND); unfold upto; lia.
      * apply Rnot_lt_le. intros L. apply (sorted_below l x _ ND) in L; lia.
      * apply (sorted_upto l x _ ND); unfold upto; lia.
      * apply Rnot_lt_le. intros L. apply (sorted_below l x _ ND) in L; lia.
  - intros K i Hi [E1 E2]. fold l in Hi, E1, E2.
    assert (A : ~ (i < below l x)%nat). { intros L. apply (sorted_below l x i ND) in L; [lra|lia]. }
    assert (B : (i + r < upto l x)%nat). { apply (sorted_upto l x (i + r) ND); [lia|lra]. }
    unfold upto in B. lia.
Qed.

Lemma unit_sorted : forall s, on_unit s -> nondecreasing (knots (sbasis s)).
Proof. intros s [(W & _) _]. apply W. Qed.

Lemma combine_tidy : forall s1 s2 b deg, on_unit s1 -> on_unit s2 -> b = combine_bases (sbasis s1) (sbasis s2) deg ->
  nondecreasing (knots b) ->
  (degree (sbasis s1) <= deg)%nat -> (degree (sbasis s2) <= deg)%nat ->
  tidy (sbasis s1) -> tidy (sbasis s2) -> tidy b.
Proof.
  intros s1 s2 b deg U1 U2 -> ND D1 D2 T1 T2 t It. apply mult_le_cnt; [exact ND|].
  specialize (T1 t It). specialize (T2 t It).
  apply mult_le_cnt in T1; [|apply unit_sorted, U1]. apply mult_le_cnt in T2; [|apply unit_sorted, U2].
  rewrite combine_mult by assumption. cbn [degree].
  change (degree (combine_bases (sbasis s1) (sbasis s2) deg)) with deg.
  destruct (cnt (knots (sbasis s1)) t =? 0)%nat, (cnt (knots (sbasis s2)) t =? 0)%nat; lia.
Qed.

Lemma mul_tidy : forall tol s t u, on_unit s -> on_unit t -> tidy (sbasis s) -> tidy (sbasis t) ->
  mul_spline tol s t = Some u -> tidy (sbasis u).
Proof.
  intros tol s t u U1 U2 T1 T2 E. pose proof (mul_unit tol s t u U1 U2 E) as U. apply unit_sorted in U. unfold mul_spline in E.
  destruct (transform _ _ _ _); [|discriminate]. injection E as <-.
  apply (combine_tidy s t _ (degree (sbasis s) + degree (sbasis t))); try assumption; try reflexivity; lia.
Qed.
Lemma add_tidy : forall tol s t u, on_unit s -> on_unit t -> tidy (sbasis s) -> tidy (sbasis t) ->
  add_spline tol s t = Some u -> tidy (sbasis u).
Proof.
  intros tol s t u U1 U2 T1 T2 E. pose proof (add_unit tol s t u U1 U2 E) as U. apply unit_sorted in U. unfold add_spline in E.
  destruct (transform_basis _ _ _); [|discriminate]. destruct (transform_basis _ _ _); [|discriminate]. injection E as <-.
  apply (combine_tidy s t _ (Nat.max (degree (sbasis s)) (degree (sbasis t)))); try assumption; try reflexivity; lia.
Qed.
Lemma pow_tidy : forall tol s k a u, on_unit s -> on_unit a -> tidy (sbasis s) -> tidy (sbasis a) ->
  pow_go tol s a k = Some u -> tidy (sbasis u).
Proof.
  intros tol s. induction k as [|k IH]; intros a u US UA TS TA E; cbn in E; [injection E as <-; exact TA|].
  destruct (mul_spline tol a s) as [a'|] eqn:M; [|discriminate].
  apply (IH a' u US); [apply (mul_unit tol a s); assumption|exact TS|apply (mul_tidy tol a s); assumption|exact E].
Qed.

Definition neat (o : pyobj) : Prop := match o with Spl s => tidy (sbasis s) | Num _ => True end.
Lemma o_neg_neat : forall o, neat o -> neat (o_neg o).
Proof. intros [r|s] H; exact H. Qed.
Lemma o_add_neat : forall tol a b o, good a -> good b -> neat a -> neat b -> o_add tol a b = Some o -> neat o.
Proof.
  intros tol [r|s] [q|t] o Ga Gb Na Nb E; cbn in *.
  - injection E as <-. exact I.
  - injection E as <-. exact Nb.
  - injection E as <-. exact Na.
  - destruct (add_spline tol s t) as [u|] eqn:M; [|discriminate]. injection E as <-. apply (add_tidy tol s t); assumption.
Qed.
Lemma o_mul_neat : forall tol a b o, good a -> good b -> neat a -> neat b -> o_mul tol a b = Some o -> neat o.
Proof.
  intros tol [r|s] [q|t] o Ga Gb Na Nb E; cbn in *.
  - injection E as <-. exact I.
  - injection E as <-. exact Nb.
  - injection E as <-. exact Na.
  - destruct (mul_spline tol s t) as [u|] eqn:M; [|discriminate]. injection E as <-. apply (mul_tidy tol s t); assumption.
Qed.
Lemma deriv_tidy : forall s o, on_unit s -> (o <= degree (sbasis s))%nat ->
  (forall t, 0 < t < 1 -> mult_le (sbasis s) t (degree (sbasis s) - o)) -> tidy (sbasis (derivative s o)).
Proof.
  intros s o [(W & _) Z] O M t It. destruct (deriv_inv o s O W Z) as (_ & _ & D & _ & _ & G). rewrite D. apply G, M, It.
Qed.

(** an expression of continuous splines is a continuous spline *)
Lemma build_neat : forall tol X e o, fits X e -> seamless X e -> build tol X e = Some o -> neat o.
Proof.
  intros tol X. induction e as [i k|r|a IHa b IHb|a IHa b IHb|a IHa b IHb|a IHa|a IHa n]; intros o F S E; cbn [build fits seamless] in *.
  - injection E as <-. destruct F as [U O]. apply deriv_tidy; assumption.
  - injection E as <-. exact I.
  - destruct (build tol X a) as [u|] eqn:Ea; [|discriminate]. destruct (build tol X b) as [v|] eqn:Eb; [|discriminate].
    destruct F as [Fa Fb], S as [Sa Sb]. apply (o_add_neat tol u v); auto; [apply (build_good tol X a u Fa Ea)|apply (build_good tol X b v Fb Eb)].
  - destruct (build tol X a) as [u|] eqn:Ea; [|discriminate]. destruct (build tol X b) as [v|] eqn:Eb; [|discriminate].
    destruct F as [Fa Fb], S as [Sa Sb]. unfold o_sub in E. apply (o_add_neat tol u (o_neg v)); auto.
    + apply (build_good tol X a u Fa Ea).
    + apply o_neg_good, (build_good tol X b v Fb Eb).
    + apply o_neg_neat; auto.
  - destruct (build tol X a) as [u|] eqn:Ea; [|discriminate]. destruct (build tol X b) as [v|] eqn:Eb; [|discriminate].
    destruct F as [Fa Fb], S as [Sa Sb]. apply (o_mul_neat tol u v); auto; [apply (build_good tol X a u Fa Ea)|apply (build_good tol X b v Fb Eb)].
  - destruct (build tol X a) as [u|] eqn:Ea; [|discriminate]. injection E as <-. apply o_neg_neat; auto.
  - destruct (build tol X a) as [u|] eqn:Ea; [|discriminate]. destruct F as [Fa Fn].
    pose proof (build_good tol X a u Fa Ea) as [G _]. specialize (IHa u Fa S eq_refl).
    destruct u as [r|s]; cbn in E; [injection E as <-; exact I|].
    destruct (pow_spline tol s (Z.of_nat n)) as [w|] eqn:P; [|discriminate]. injection E as <-.
    cbn. apply (pow_tidy tol s (Z.to_nat (Z.of_nat n - 1)) s); assumption.
Qed.

Lemma build_spline : forall tol X e s, fits X e -> seamless X e -> build tol X e = Some (Spl s) ->
  on_unit s /\ tidy (sbasis s).
Proof.
  intros tol X e s F S E. split; [apply (proj1 (build_good tol X e _ F E))|apply (build_neat tol X e _ F S E)].
Qed.

(** ** integrate_once *)
Section Integral.
Variables (dx : bspline) (x0 t0 T : R).
Hypothesis HU : on_unit dx.

Lemma integrate_spline_unit : on_unit (integrate_spline dx x0 t0 T).
Proof. unfold integrate_spline. apply add_num_unit, add_num_unit, mul_num_unit, ri_unit, HU. Qed.

Lemma integrate_spline_call : forall tau, 0 <= tau <= 1 ->
  call (integrate_spline dx x0 t0 T) tau = integrate_once (call (running_integral dx)) x0 t0 T tau.
Proof.
  intros tau It. unfold integrate_spline, integrate_once.
  pose proof (ri_unit dx HU) as UR. pose proof (mul_num_unit _ T UR) as UM. pose proof UM as [CM SM].
  set (I := mul_num (running_integral dx) T) in *.
  pose proof (add_num_unit I (- evalspline I (t0 / T)) UM) as [CA SA].
  rewrite add_num_call; [|apply CA|exact SA|apply (clamped_in _ 0 1); auto].
  rewrite add_num_call; [|apply CM|exact SM|apply (clamped_in _ 0 1); auto].
  rewrite evalspline_call by exact SM. unfold I. rewrite !mul_num_call. ring.
Qed.

Hypothesis HT : 0 < T.
Hypothesis H0 : 0 <= t0 <= T.

Lemma integrate_spline_start : call (integrate_spline dx x0 t0 T) (t0 / T) = x0.
Proof. rewrite integrate_spline_call by (apply unit_time; assumption). apply integrate_start. Qed.

Hypothesis HC : tidy (sbasis dx).
Lemma integrate_spline_deriv : forall t, 0 <= t <= T ->
  deriv_in 0 T (fun u => call (integrate_spline dx x0 t0 T) (u / T)) t (call dx (t / T)).
Proof.
  intros t It. apply (deriv_ext 0 T (fun u => integrate_once (call (running_integral dx)) x0 t0 T (u / T))); [exact It| |].
  - intros u Iu. symmetry. apply integrate_spline_call, unit_time; assumption.
  - apply (integrate_phys (call (running_integral dx)) x0 t0 T t (call dx)); [exact HT|exact It|].
    apply ri_deriv; [exact HU|exact HC].
Qed.

Lemma integrate_spline_tidy : tidy (sbasis (integrate_spline dx x0 t0 T)).
Proof.
  intros t It. change (sbasis (integrate_spline dx x0 t0 T)) with (rib (sbasis dx)).
  destruct HU as [(W & (C1 & C2 & _) & E0 & E1) SZ].
  assert (D : degree (rib (sbasis dx)) = S (degree (sbasis dx))) by (cbn; lia).
  apply (mult_le_weaken _ _ (degree (sbasis dx))); [lia|apply (rib_wf _ W)|].
  apply rib_mult; [exact W| |apply HC, It]. unfold dom_left, dom_right. rewrite <- C1, C2, E0, E1. exact It.
Qed.
End Integral.
