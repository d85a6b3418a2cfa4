From Coq Require Import Reals List Arith Bool ZArith Lia Lra.
From Verif Require Import Spline_Model Spline_Spec Spline_Proofs Splop_Model Splop_Spec Splop_Proofs2 Splop_Proofs3
  Vehicle_Model Vehicle_Spec End_Proofs Lift_Model Lift_Spec Lift_Proofs.
Import ListNotations.
Local Open Scope R_scope.

Lemma pow_drift_0 : forall s k a, pow_drift 0 s a 0 0 k = 0.
Proof.
  induction k as [|k IH]; intros a; cbn [pow_drift]; [reflexivity|].
  destruct (mul_spline 0 a s); [|reflexivity].
  replace (0 * (size_of (coeffs a) * size_of (coeffs s)) + mixed (size_of (coeffs a)) 0 (size_of (coeffs s)) 0) with 0
    by (unfold mixed; ring). apply IH.
Qed.
Theorem drift_0 : forall X e, drift 0 X e = 0.
Proof.
  intros X. induction e as [i k|r|a IHa b IHb|a IHa b IHb|a IHa b IHb|a IHa|a IHa n]; cbn [drift]; try reflexivity.
  - rewrite IHa, IHb. destruct (mentions a && mentions b); ring.
  - rewrite IHa, IHb. destruct (mentions a && mentions b); ring.
  - rewrite IHa, IHb. unfold mixed. destruct (mentions a && mentions b); ring.
  - exact IHa.
  - rewrite IHa. destruct (build 0 X a) as [[r|s]|]; try reflexivity. apply pow_drift_0.
Qed.
Theorem drift_plain : forall tol X e, fits X e -> plain e = true -> drift tol X e = 0.
Proof.
  intros tol X. induction e as [i k|r|a IHa b IHb|a IHa b IHb|a IHa b IHb|a IHa|a IHa n]; intros F P; cbn [drift fits plain] in *; try reflexivity.
  - destruct F as [Fa Fb]. apply andb_prop in P. destruct P as [P N]. apply andb_prop in P. destruct P as [Pa Pb].
    rewrite IHa, IHb by auto. apply negb_true_iff in N. rewrite N. ring.
  - destruct F as [Fa Fb]. apply andb_prop in P. destruct P as [P N]. apply andb_prop in P. destruct P as [Pa Pb].
    rewrite IHa, IHb by auto. apply negb_true_iff in N. rewrite N. ring.
  - destruct F as [Fa Fb]. apply andb_prop in P. destruct P as [P N]. apply andb_prop in P. destruct P as [Pa Pb].
    rewrite IHa, IHb by auto. apply negb_true_iff in N. rewrite N. unfold mixed. ring.
  - auto.
  - destruct F as [Fa _]. apply andb_prop in P. destruct P as [Pa N]. rewrite (IHa Fa Pa).
    destruct (build tol X a) as [[r|s]|] eqn:B; try reflexivity.
    destruct (build_good _ _ _ _ Fa B) as [_ M]. cbn in M. rewrite <- M in N. cbn in N.
    apply Nat.eqb_eq in N. subst n. reflexivity.
Qed.
Lemma drift_nonneg : forall tol X e x o, 0 <= tol -> fits X e -> build tol X e = Some o -> 0 <= x <= 1 -> 0 <= drift tol X e.
Proof.
  intros tol X e x o T F B I. eapply Rle_trans; [apply Rabs_pos|apply (build_close tol X e o x T F I B)].
Qed.

(* bounds on the coefficients bound the value *)
Lemma coeff_bounds : forall lo hi s x, on_unit s -> 0 <= x <= 1 ->
  admitted_by lo hi (coeffs s) ->
  match lo with None => True | Some b => b <= call s x end /\ call s x <= hi.
Proof.
  intros lo hi s x [C Z] I A. pose proof (clamped_in _ _ _ _ C I) as D.
  set (m := match lo with None => - size_of (coeffs s) | Some b => b end).
  assert (H : m <= call s x <= hi).
  { apply call_hull; [apply C|exact Z|exact D|]. intros c Hc. destruct (A c Hc) as [A1 A2]. split; [|exact A2].
    unfold m. destruct lo; [exact A1|]. pose proof (size_in _ _ Hc) as K.
    pose proof (Rle_abs (- c)) as L. rewrite Rabs_Ropp in L. lra. }
  split; [|apply H]. destruct lo; [apply H|exact Logic.I].
Qed.

Theorem lift_close : forall tol X c x, 0 <= tol -> fits X (cexpr c) -> mentions (cexpr c) = true ->
  0 <= x <= 1 -> solved tol X [c] ->
  match clo c with None => True | Some l => l - drift tol X (cexpr c) <= sval (jets X x) (cexpr c) end /\
  sval (jets X x) (cexpr c) <= chi c + drift tol X (cexpr c).
Proof.
  intros tol X c x T F M I S. destruct (S c (or_introl eq_refl)) as (o & B & A).
  destruct (build_good _ _ _ _ F B) as [G K]. rewrite M in K. destruct o as [r|s]; [discriminate|].
  pose proof (build_close _ _ _ _ x T F I B) as D. cbn [val] in D. cbn [entries kept] in A.
  destruct (coeff_bounds _ _ s x G I A) as [L U].
  assert (D1 := Rle_trans _ _ _ (Rle_abs _) D).
  assert (D2 : - (call s x - sval (jets X x) (cexpr c)) <= drift tol X (cexpr c)).
  { eapply Rle_trans; [apply Rle_abs|]. rewrite Rabs_Ropp. exact D. }
  split; [destruct (clo c); [lra|exact Logic.I]|lra].
Qed.
Lemma solved_one : forall tol X cs c, solved tol X cs -> In c cs -> solved tol X [c].
Proof. intros tol X cs c S H d [<-|[]]. apply S, H. Qed.
Theorem lift_exact : forall X cs, (forall c, In c cs -> fits X (cexpr c) /\ mentions (cexpr c) = true) ->
  solved 0 X cs -> forall x, 0 <= x <= 1 -> holds (jets X x) cs.
Proof.
  intros X cs F S x I c Hc. destruct (F c Hc) as [Fc M].
  pose proof (lift_close 0 X c x (Rle_refl 0) Fc M I (solved_one _ _ _ _ S Hc)) as K.
  rewrite drift_0 in K. destruct K as [K1 K2]. split; [destruct (clo c); [lra|exact Logic.I]|lra].
Qed.
Theorem lift_plain : forall tol X cs, 0 <= tol ->
  (forall c, In c cs -> fits X (cexpr c) /\ mentions (cexpr c) = true /\ plain (cexpr c) = true) ->
  solved tol X cs -> forall x, 0 <= x <= 1 -> holds (jets X x) cs.
Proof.
  intros tol X cs T F S x I c Hc. destruct (F c Hc) as (Fc & M & P).
  pose proof (lift_close tol X c x T Fc M I (solved_one _ _ _ _ S Hc)) as K.
  rewrite (drift_plain tol X _ Fc P) in K. destruct K as [K1 K2]. split; [destruct (clo c); [lra|exact Logic.I]|lra].
Qed.

(* plain expressions can always be built *)
Theorem plain_builds : forall tol X e, fits X e -> plain e = true -> exists o, build tol X e = Some o.
Proof.
  intros tol X. induction e as [i k|r|a IHa b IHb|a IHa b IHb|a IHa b IHb|a IHa|a IHa n]; intros F P; cbn [build fits plain] in *; eauto.
  - destruct F as [Fa Fb]. apply andb_prop in P. destruct P as [P N]. apply andb_prop in P. destruct P as [Pa Pb].
    destruct (IHa Fa Pa) as [u U]. destruct (IHb Fb Pb) as [v V]. rewrite U, V.
    destruct (build_good _ _ _ _ Fa U) as [_ M1], (build_good _ _ _ _ Fb V) as [_ M2]. rewrite <- M1, <- M2 in N.
    destruct u, v; cbn in *; try discriminate; eauto.
  - destruct F as [Fa Fb]. apply andb_prop in P. destruct P as [P N]. apply andb_prop in P. destruct P as [Pa Pb].
    destruct (IHa Fa Pa) as [u U]. destruct (IHb Fb Pb) as [v V]. rewrite U, V.
    destruct (build_good _ _ _ _ Fa U) as [_ M1], (build_good _ _ _ _ Fb V) as [_ M2]. rewrite <- M1, <- M2 in N.
    destruct u, v; cbn in *; try discriminate; eauto.
  - destruct F as [Fa Fb]. apply andb_prop in P. destruct P as [P N]. apply andb_prop in P. destruct P as [Pa Pb].
    destruct (IHa Fa Pa) as [u U]. destruct (IHb Fb Pb) as [v V]. rewrite U, V.
    destruct (build_good _ _ _ _ Fa U) as [_ M1], (build_good _ _ _ _ Fb V) as [_ M2]. rewrite <- M1, <- M2 in N.
    destruct u, v; cbn in *; try discriminate; eauto.
  - destruct (IHa F P) as [u U]. rewrite U. eauto.
  - destruct F as [Fa _]. apply andb_prop in P. destruct P as [Pa N]. destruct (IHa Fa Pa) as [u U]. rewrite U.
    destruct (build_good _ _ _ _ Fa U) as [_ M]. rewrite <- M in N. destruct u as [r|s]; cbn in *; eauto.
    apply Nat.eqb_eq in N. subst n. cbn. eauto.
Qed.

(* the splines and their derivatives belong together *)
Theorem jets_smooth : forall X i o, on_unit (X i) -> (o < degree (sbasis (X i)))%nat ->
  (forall t, 0 < t < 1 -> mult_le (sbasis (X i)) t (degree (sbasis (X i)) - o - 1)) ->
  smooth 0 1 (fun tau => jets X tau i) o.
Proof.
  intros X i o [(WF & CL & E1 & E2) Z] O M t I. unfold jets.
  pose proof (derivative_within (X i) o t WF Z CL O) as D. unfold lo_end, hi_end in D. rewrite E1, E2 in D.
  apply D; [exact I|]. intros J. apply M, J.
Qed.

(* start and end constraints fix the values *)
Theorem starts_value : forall tol X tau i o r, on_unit (X i) -> (o <= degree (sbasis (X i)))%nat ->
  starts tol X tau [[SV i o; SN r]] -> jets X tau i o = r.
Proof.
  intros tol X tau i o r U O S. destruct (S _ (or_introl eq_refl)) as (s & q & B & E & V).
  cbn in B, E. injection B as <-. injection E as <-. unfold jets.
  rewrite <- evalspline_call; [lra|]. apply (deriv_unit _ _ U O).
Qed.
Theorem stops_value : forall tol X i o r, stops tol X [(SV i o, r)] -> jets X 1 i o = r.
Proof.
  intros tol X i o r S. destruct (S _ (or_introl eq_refl)) as (s & B & V). cbn in B. injection B as <-. unfold jets. cbn in V. lra.
Qed.
