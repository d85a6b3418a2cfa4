From Coq Require Import Reals List Arith Bool ZArith Lia Lra.
From Verif Require Import Spline_Model Spline_Spec Spline_Proofs Spline_Proofs2 Spline_Proofs3 Spline_Proofs5 Splop_Model Splop_Spec Splop_Proofs2 Splop_Proofs3 Splop_Proofs4
  Vehicle_Model Vehicle_Spec End_Proofs Lift_Model Lift_Spec.
Import ListNotations.
Local Open Scope R_scope.

Lemma deriv_unit : forall s o, on_unit s -> (o <= degree (sbasis s))%nat -> on_unit (derivative s o).
Proof.
  intros s o [C SZ] O. destruct C as (WF & CL & E1 & E2).
  destruct (deriv_inv o s O WF SZ) as (A & B & _).
  destruct (deriv_ends o s O WF SZ CL) as [EL ER]. unfold lo_end, hi_end in *.
  split; [|exact B]. split; [exact A|]. split; [apply deriv_clamped; auto|].
  split; [rewrite EL; exact E1|rewrite ER; exact E2].
Qed.

Definition good (o : pyobj) : Prop := match o with Spl s => on_unit s | Num _ => True end.
Definition val (o : pyobj) (tau : R) : R := match o with Spl s => call s tau | Num r => r end.
Definition wt (o : pyobj) : R := match o with Spl s => size_of (coeffs s) | Num r => Rabs r end.
Definition isS (o : pyobj) : bool := match o with Spl _ => true | Num _ => false end.

Lemma add_num_unit : forall s r, on_unit s -> on_unit (add_num s r).
Proof. intros s r [C Z]. split; [exact C|]. unfold sized, add_num in *. cbn [sbasis coeffs]. rewrite map_length. exact Z. Qed.
Lemma mul_num_unit : forall s r, on_unit s -> on_unit (mul_num s r).
Proof. intros s r [C Z]. split; [exact C|]. unfold sized, mul_num in *. cbn [sbasis coeffs]. rewrite map_length. exact Z. Qed.
Lemma neg_unit : forall s, on_unit s -> on_unit (neg s).
Proof. intros s [C Z]. split; [exact C|]. apply neg_sized, Z. Qed.
Lemma add_unit : forall tol s t u, on_unit s -> on_unit t -> add_spline tol s t = Some u -> on_unit u.
Proof.
  intros tol s t u [C1 Z1] [C2 Z2] E. split; [apply (add_clamped tol s t u 0 1 C1 C2 E)|]. apply (add_spline_basis _ _ _ _ E).
Qed.
Lemma mul_unit : forall tol s t u, on_unit s -> on_unit t -> mul_spline tol s t = Some u -> on_unit u.
Proof.
  intros tol s t u [C1 Z1] [C2 Z2] E. split; [apply (mul_clamped tol s t u 0 1 C1 C2 E)|].
  unfold mul_spline in E. destruct (transform _ _ _ _); [|discriminate]. injection E as <-.
  unfold sized, cols_dot, blen. cbn [coeffs sbasis]. rewrite map_length, seq_length. reflexivity.
Qed.
Lemma pow_unit : forall tol s k a u, on_unit s -> on_unit a -> pow_go tol s a k = Some u -> on_unit u.
Proof.
  induction k as [|k IH]; intros a u Hs Ha E; cbn [pow_go] in E; [injection E as <-; exact Ha|].
  destruct (mul_spline tol a s) as [a'|] eqn:M; [|discriminate]. apply (IH a' u Hs); [|exact E]. apply (mul_unit tol a s a' Ha Hs M).
Qed.

Lemma size_in : forall c v, In v c -> Rabs v <= size_of c.
Proof.
  induction c as [|a c IH]; intros v []; cbn [size_of fold_right].
  - subst. pose proof (size_nonneg c). unfold size_of in *. lra.
  - pose proof (IH v H). pose proof (Rabs_pos a). unfold size_of in *. lra.
Qed.
Lemma call_size : forall s x, on_unit s -> 0 <= x <= 1 -> Rabs (call s x) <= size_of (coeffs s).
Proof.
  intros s x [C Z] I. pose proof (clamped_in _ _ _ _ C I) as D.
  pose proof (call_hull s x (- size_of (coeffs s)) (size_of (coeffs s)) (proj1 C) Z D) as H.
  apply Rabs_le. apply H. intros c Hc. pose proof (size_in _ _ Hc) as K.
  pose proof (Rle_abs c). pose proof (Rle_abs (- c)) as L. rewrite Rabs_Ropp in L. lra.
Qed.
Lemma wt_nonneg : forall o, 0 <= wt o.
Proof. intros [r|s]; cbn; [apply Rabs_pos|apply size_nonneg]. Qed.
Lemma val_wt : forall o x, good o -> 0 <= x <= 1 -> Rabs (val o x) <= wt o.
Proof. intros [r|s] x G I; cbn; [apply Rle_refl|apply call_size; auto]. Qed.

Lemma o_neg_val : forall o x, val (o_neg o) x = - val o x.
Proof. intros [r|s] x; cbn; [reflexivity|apply neg_call]. Qed.
Lemma o_neg_good : forall o, good o -> good (o_neg o).
Proof. intros [r|s] G; cbn in *; [exact G|apply neg_unit, G]. Qed.
Lemma o_neg_wt : forall o, wt (o_neg o) = wt o.
Proof. intros [r|s]; cbn; [apply Rabs_Ropp|apply size_neg]. Qed.
Lemma o_neg_isS : forall o, isS (o_neg o) = isS o.
Proof. intros [r|s]; reflexivity. Qed.

Lemma o_add_good : forall tol a b o, good a -> good b -> o_add tol a b = Some o ->
  good o /\ isS o = (isS a || isS b)%bool.
Proof.
  intros tol [r|s] [q|t] o Ga Gb E; cbn in *.
  - injection E as <-. split; [exact Logic.I|reflexivity].
  - injection E as <-. split; [apply add_num_unit, Gb|reflexivity].
  - injection E as <-. split; [apply add_num_unit, Ga|reflexivity].
  - destruct (add_spline tol s t) as [u|] eqn:A; [|discriminate]. injection E as <-.
    split; [apply (add_unit tol s t u Ga Gb A)|reflexivity].
Qed.
Lemma o_mul_good : forall tol a b o, good a -> good b -> o_mul tol a b = Some o ->
  good o /\ isS o = (isS a || isS b)%bool.
Proof.
  intros tol [r|s] [q|t] o Ga Gb E; cbn in *.
  - injection E as <-. split; [exact Logic.I|reflexivity].
  - injection E as <-. split; [apply mul_num_unit, Gb|reflexivity].
  - injection E as <-. split; [apply mul_num_unit, Ga|reflexivity].
  - destruct (mul_spline tol s t) as [u|] eqn:A; [|discriminate]. injection E as <-.
    split; [apply (mul_unit tol s t u Ga Gb A)|reflexivity].
Qed.
Lemma o_add_val : forall tol a b o x, 0 <= tol -> good a -> good b -> 0 <= x <= 1 -> o_add tol a b = Some o ->
  Rabs (val o x - (val a x + val b x)) <= (if isS a && isS b then tol * (wt a + wt b) else 0).
Proof.
  intros tol [r|s] [q|t] o x T Ga Gb I E; cbn [o_add good isS andb wt] in *.
  - injection E as <-. cbn [val]. replace (r + q - (r + q)) with 0 by ring. rewrite Rabs_R0. apply Rle_refl.
  - injection E as <-. cbn [val]. destruct Gb as [C Z]. rewrite add_num_call; [|apply C|exact Z|apply (clamped_in _ 0 1); auto].
    replace (call t x + r - (r + call t x)) with 0 by ring. rewrite Rabs_R0. apply Rle_refl.
  - injection E as <-. cbn [val]. destruct Ga as [C Z]. rewrite add_num_call; [|apply C|exact Z|apply (clamped_in _ 0 1); auto].
    replace (call s x + q - (call s x + q)) with 0 by ring. rewrite Rabs_R0. apply Rle_refl.
  - destruct (add_spline tol s t) as [u|] eqn:A; [|discriminate]. injection E as <-. cbn [val].
    destruct Ga as [C1 Z1], Gb as [C2 Z2]. apply (add_close tol s t u 0 1 x); auto.
Qed.
Lemma o_mul_val : forall tol a b o x, 0 <= tol -> good a -> good b -> 0 <= x <= 1 -> o_mul tol a b = Some o ->
  Rabs (val o x - (val a x * val b x)) <= (if isS a && isS b then tol * (wt a * wt b) else 0).
Proof.
  intros tol [r|s] [q|t] o x T Ga Gb I E; cbn [o_mul good isS andb wt] in *.
  - injection E as <-. cbn [val]. replace (r * q - (r * q)) with 0 by ring. rewrite Rabs_R0. apply Rle_refl.
  - injection E as <-. cbn [val]. rewrite mul_num_call.
    replace (r * call t x - (r * call t x)) with 0 by ring. rewrite Rabs_R0. apply Rle_refl.
  - injection E as <-. cbn [val]. rewrite mul_num_call.
    replace (q * call s x - (call s x * q)) with 0 by ring. rewrite Rabs_R0. apply Rle_refl.
  - destruct (mul_spline tol s t) as [u|] eqn:A; [|discriminate]. injection E as <-. cbn [val].
    destruct Ga as [C1 Z1], Gb as [C2 Z2]. apply (mul_close_size tol s t u 0 1 x); auto.
Qed.

Lemma mixed_ok : forall p q A B wa wb ea eb, Rabs p <= wa -> Rabs q <= wb -> 
  Rabs (p - A) <= ea -> Rabs (q - B) <= eb -> Rabs (p * q - A * B) <= mixed wa ea wb eb.
Proof.
  intros p q A B wa wb ea eb Hp Hq Ha Hb. unfold mixed.
  replace (p * q - A * B) with (p * (q - B) + B * (p - A)) by ring.
  eapply Rle_trans; [apply Rabs_triang|]. rewrite !Rabs_mult.
  assert (Rabs B <= wb + eb).
  { replace B with (q - (q - B)) by ring. eapply Rle_trans; [apply Rabs_triang|]. rewrite Rabs_Ropp. lra. }
  apply Rplus_le_compat; apply Rmult_le_compat; auto using Rabs_pos.
Qed.

Lemma pow_drift_ok : forall tol s S es x, 0 <= tol -> on_unit s -> 0 <= x <= 1 -> Rabs (call s x - S) <= es ->
  forall k a u A ea, on_unit a -> Rabs (call a x - A) <= ea ->
  pow_go tol s a k = Some u -> Rabs (call u x - A * S ^ k) <= pow_drift tol s a es ea k.
Proof.
  intros tol s S es x T Us Ix Hs. induction k as [|k IH]; intros a u A ea Ua Ha E; cbn [pow_go pow_drift] in *.
  - injection E as <-. rewrite pow_O, Rmult_1_r. exact Ha.
  - destruct (mul_spline tol a s) as [a'|] eqn:M; [|discriminate].
    replace (A * S ^ Datatypes.S k) with ((A * S) * S ^ k) by (cbn [pow]; ring).
    apply (IH a' u (A * S)); [apply (mul_unit tol a s a' Ua Us M)| |exact E].
    replace (call a' x - A * S) with ((call a' x - call a x * call s x) + (call a x * call s x - A * S)) by ring.
    eapply Rle_trans; [apply Rabs_triang|]. apply Rplus_le_compat.
    + apply (mul_close_size tol a s a' 0 1 x); auto; try apply Ua; apply Us.
    + apply mixed_ok; auto; apply call_size; auto.
Qed.

(* what can be built is a proper spline, a spline exactly if one occurs *)
Lemma build_good : forall tol X e o, fits X e -> build tol X e = Some o -> good o /\ isS o = mentions e.
Proof.
  intros tol X. induction e as [i k|r|a IHa b IHb|a IHa b IHb|a IHa b IHb|a IHa|a IHa n]; intros o F E; cbn [build fits mentions] in *.
  - injection E as <-. split; [|reflexivity]. apply deriv_unit; apply F.
  - injection E as <-. split; [exact Logic.I|reflexivity].
  - destruct (build tol X a) as [u|]; [|discriminate]. destruct (build tol X b) as [v|]; [|discriminate].
    destruct (IHa u (proj1 F) eq_refl) as [G1 M1]. destruct (IHb v (proj2 F) eq_refl) as [G2 M2].
    rewrite <- M1, <- M2. apply (o_add_good tol); auto.
  - destruct (build tol X a) as [u|]; [|discriminate]. destruct (build tol X b) as [v|]; [|discriminate].
    destruct (IHa u (proj1 F) eq_refl) as [G1 M1]. destruct (IHb v (proj2 F) eq_refl) as [G2 M2].
    rewrite <- M1, <- M2, <- (o_neg_isS v). apply (o_add_good tol); auto using o_neg_good.
  - destruct (build tol X a) as [u|]; [|discriminate]. destruct (build tol X b) as [v|]; [|discriminate].
    destruct (IHa u (proj1 F) eq_refl) as [G1 M1]. destruct (IHb v (proj2 F) eq_refl) as [G2 M2].
    rewrite <- M1, <- M2. apply (o_mul_good tol); auto.
  - destruct (build tol X a) as [u|]; [|discriminate]. injection E as <-.
    destruct (IHa u F eq_refl) as [G1 M1]. rewrite o_neg_isS. auto using o_neg_good.
  - destruct (build tol X a) as [u|]; [|discriminate]. destruct (IHa u (proj1 F) eq_refl) as [G1 M1]. destruct u as [r|s]; cbn [o_pow] in E.
    + injection E as <-. split; [exact Logic.I|exact M1].
    + destruct (pow_spline tol s (Z.of_nat n)) as [w|] eqn:P; [|discriminate]. injection E as <-.
      split; [|exact M1]. cbn in G1. cbn. unfold pow_spline in P. eapply pow_unit; eauto.
Qed.
Lemma weight_wt : forall tol X e o, build tol X e = Some o -> weight tol X e = wt o.
Proof. intros tol X e o E. unfold weight. rewrite E. destruct o; reflexivity. Qed.

(* the built expression against the exact one *)
Theorem build_close : forall tol X e o x, 0 <= tol -> fits X e -> 0 <= x <= 1 -> build tol X e = Some o ->
  Rabs (val o x - sval (jets X x) e) <= drift tol X e.
Proof.
  intros tol X e o x T F I. revert o F.
  induction e as [i k|r|a IHa b IHb|a IHa b IHb|a IHa b IHb|a IHa|a IHa n]; intros o F E.
  - cbn in *. injection E as <-. cbn [val]. unfold jets. rewrite Rminus_diag_eq by reflexivity. rewrite Rabs_R0. apply Rle_refl.
  - cbn in *. injection E as <-. cbn [val]. rewrite Rminus_diag_eq by reflexivity. rewrite Rabs_R0. apply Rle_refl.
  - cbn [build fits sval drift] in *.
    destruct (build tol X a) as [u|] eqn:Ea; [|discriminate]. destruct (build tol X b) as [v|] eqn:Eb; [|discriminate].
    destruct (build_good _ _ _ _ (proj1 F) Ea) as [G1 M1]. destruct (build_good _ _ _ _ (proj2 F) Eb) as [G2 M2].
    rewrite <- M1, <- M2, (weight_wt _ _ _ _ Ea), (weight_wt _ _ _ _ Eb).
    pose proof (o_add_val tol u v o x T G1 G2 I E) as K.
    pose proof (IHa u (proj1 F) eq_refl) as Ka. pose proof (IHb v (proj2 F) eq_refl) as Kb.
    replace (val o x - (sval (jets X x) a + sval (jets X x) b)) with
      ((val u x - sval (jets X x) a) + (val v x - sval (jets X x) b) + (val o x - (val u x + val v x))) by ring.
    eapply Rle_trans; [apply Rabs_triang|]. apply Rplus_le_compat; [|exact K].
    eapply Rle_trans; [apply Rabs_triang|]. apply Rplus_le_compat; assumption.
  - cbn [build fits sval drift] in *.
    destruct (build tol X a) as [u|] eqn:Ea; [|discriminate]. destruct (build tol X b) as [v|] eqn:Eb; [|discriminate].
    destruct (build_good _ _ _ _ (proj1 F) Ea) as [G1 M1]. destruct (build_good _ _ _ _ (proj2 F) Eb) as [G2 M2].
    rewrite <- M1, <- M2, (weight_wt _ _ _ _ Ea), (weight_wt _ _ _ _ Eb).
    pose proof (o_add_val tol u (o_neg v) o x T G1 (o_neg_good _ G2) I E) as K.
    rewrite o_neg_isS, o_neg_wt, o_neg_val in K.
    pose proof (IHa u (proj1 F) eq_refl) as Ka. pose proof (IHb v (proj2 F) eq_refl) as Kb.
    replace (val o x - (sval (jets X x) a - sval (jets X x) b)) with
      ((val u x - sval (jets X x) a) + - (val v x - sval (jets X x) b) + (val o x - (val u x + - val v x))) by ring.
    eapply Rle_trans; [apply Rabs_triang|]. apply Rplus_le_compat; [|exact K].
    eapply Rle_trans; [apply Rabs_triang|]. rewrite Rabs_Ropp. apply Rplus_le_compat; assumption.
  - cbn [build fits sval drift] in *.
    destruct (build tol X a) as [u|] eqn:Ea; [|discriminate]. destruct (build tol X b) as [v|] eqn:Eb; [|discriminate].
    destruct (build_good _ _ _ _ (proj1 F) Ea) as [G1 M1]. destruct (build_good _ _ _ _ (proj2 F) Eb) as [G2 M2].
    rewrite <- M1, <- M2, (weight_wt _ _ _ _ Ea), (weight_wt _ _ _ _ Eb).
    pose proof (o_mul_val tol u v o x T G1 G2 I E) as K.
    pose proof (IHa u (proj1 F) eq_refl) as Ka. pose proof (IHb v (proj2 F) eq_refl) as Kb.
    replace (val o x - (sval (jets X x) a * sval (jets X x) b)) with
      ((val u x * val v x - sval (jets X x) a * sval (jets X x) b) + (val o x - (val u x * val v x))) by ring.
    eapply Rle_trans; [apply Rabs_triang|]. apply Rplus_le_compat; [|exact K].
    apply mixed_ok; auto using val_wt.
  - cbn [build fits sval drift] in *.
    destruct (build tol X a) as [u|] eqn:Ea; [|discriminate]. injection E as <-.
    pose proof (IHa u F eq_refl) as Ka. rewrite o_neg_val.
    replace (- val u x - - sval (jets X x) a) with (- (val u x - sval (jets X x) a)) by ring. rewrite Rabs_Ropp. exact Ka.
  - cbn [build fits sval drift] in *.
    destruct (build tol X a) as [u|] eqn:Ea; [|discriminate]. destruct F as [F N].
    destruct (build_good _ _ _ _ F Ea) as [G1 M1]. pose proof (IHa u F eq_refl) as Ka. destruct u as [r|s]; cbn [o_pow] in E.
    + injection E as <-. cbn [val] in *.
      assert (Z : r = sval (jets X x) a).
      { clear - M1 Ea. cbn [isS] in M1.
        assert (K : forall e r, mentions e = false -> build tol X e = Some (Num r) -> r = sval (jets X x) e).
        { clear. induction e as [i k|q|a IHa b IHb|a IHa b IHb|a IHa b IHb|a IHa|a IHa n]; intros r M E; cbn [mentions build sval] in *;
            try discriminate;
            try (destruct (mentions a) eqn:Ma; [discriminate|]; destruct (mentions b) eqn:Mb; [discriminate|];
                 destruct (build tol X a) as [[ra|sa]|]; try discriminate; destruct (build tol X b) as [[rb|sb]|]; try discriminate;
                 cbn in E; try discriminate; try (destruct (_ tol sa _); discriminate); inversion E; subst;
                 rewrite <- (IHa ra eq_refl eq_refl), <- (IHb rb eq_refl eq_refl); reflexivity).
          - congruence.
          - destruct (build tol X a) as [[ra|sa]|]; try discriminate. inversion E. subst. rewrite <- (IHa ra M eq_refl). reflexivity.
          - destruct (build tol X a) as [[ra|sa]|]; try discriminate; cbn in E.
            + inversion E. subst. rewrite <- (IHa ra M eq_refl). reflexivity.
            + destruct (pow_spline tol sa (Z.of_nat n)); discriminate. }
        apply K; [symmetry; exact M1|exact Ea]. }
      rewrite <- Z. rewrite Rminus_diag_eq by reflexivity. rewrite Rabs_R0. apply Rle_refl.
    + destruct (pow_spline tol s (Z.of_nat n)) as [w|] eqn:P; [|discriminate]. injection E as <-. cbn [val] in *.
      replace (sval (jets X x) a ^ n) with (sval (jets X x) a * sval (jets X x) a ^ (n - 1))
        by (destruct n as [|n]; [lia|]; cbn [pow]; rewrite Nat.sub_0_r || idtac; replace (Datatypes.S n - 1)%nat with n by lia; reflexivity).
      unfold pow_spline in P. replace (Z.to_nat (Z.of_nat n - 1)) with (n - 1)%nat in P by lia.
      eapply pow_drift_ok; eauto.
Qed.
