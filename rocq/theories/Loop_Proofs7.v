(** How far the vehicle is from its plan, and what an accepted answer means
    for the limits. *)
From Coq Require Import String Reals QArith Qreals ZArith Lra Lia List Arith Bool.
From Coq Require Lqa.
From Verif Require Import Spline_Model Spline_Spec Spline_Proofs3 Splop_Spec Vehicle_Model Vehicle_Spec Vehicle_Proofs Vehicle_Proofs2 Quad_Proofs
  Wheel_Proofs Lift_Model Lift_Spec Lift_Proofs Lift_Proofs2 Lift_Proofs3 Lift_Proofs4
  Loop_Model Loop_Spec Loop_Proofs Loop_Proofs2 Loop_Proofs3 Loop_Proofs4 Loop_Proofs5 Loop_Proofs6.
From Verif Require Timing_Model Timing_Proofs Timing_Proofs2.
Import ListNotations.
Local Open Scope R_scope.

Lemma interp_err : forall h u x y z lo hi, 0 < h -> 0 <= u <= h -> lo <= hi ->
  lo * u <= z - x <= hi * u -> lo * (h - u) <= y - z <= hi * (h - u) ->
  - ((hi - lo) * h / 4) <= (1 - u / h) * x + u / h * y - z <= (hi - lo) * h / 4.
Proof.
  intros h u x y z lo hi H U LH A B.
  set (c := u / h). assert (E : u = c * h) by (unfold c; field; lra).
  assert (C : 0 <= c <= 1) by (unfold c; split; apply (Rmult_le_reg_r h); try exact H; unfold Rdiv; rewrite ?Rmult_assoc, ?Rinv_l by lra; lra).
  replace ((1 - c) * x + c * y - z) with (c * (y - z) - (1 - c) * (z - x)) by ring.
  rewrite E in A, B.
  assert (Q : c * (1 - c) <= 1 / 4) by (pose proof (pow2_ge_0 (c - 1/2)); nra).
  assert (K : c * (1 - c) * h * (hi - lo) <= (hi - lo) * h / 4).
  { assert (0 <= (hi - lo) * h) by (apply Rmult_le_pos; lra). nra. }
  assert (B1 : c * (lo * (h - c * h)) <= c * (y - z)) by (apply Rmult_le_compat_l; lra).
  assert (B2 : c * (y - z) <= c * (hi * (h - c * h))) by (apply Rmult_le_compat_l; lra).
  assert (A1 : (1 - c) * (lo * (c * h)) <= (1 - c) * (z - x)) by (apply Rmult_le_compat_l; lra).
  assert (A2 : (1 - c) * (z - x) <= (1 - c) * (hi * (c * h))) by (apply Rmult_le_compat_l; lra).
  split; nra.
Qed.

(** distance between the vehicle and its plan, t seconds after an update *)
Theorem deviation : forall g m as_ p v vlo vhi alo ahi n a i t, steady g m -> Forall (proper_answer g) as_ ->
  within g as_ vlo vhi alo ahi ->
  (forall i t, (i < dim g)%nat -> 0 <= t <= at_update g (length as_) ->
     deriv_in 0 (at_update g (length as_)) (p i) t (v i t)) ->
  interpolates g m as_ p v -> nth_error as_ n = Some a -> (i < dim g)%nat -> 0 <= t <= Q2R (upd g) ->
  Rabs (p i (at_update g n + t) - course g a (phase g n) 0 i t) <= (ahi i - alo i) * Q2R (ts g) / 4 * t.
Proof.
  intros g m as_ p v vlo vhi alo ahi n a i t ST FA W D M N Hi It.
  pose proof (Q2R_pos _ (upd_pos g m ST)) as UP. pose proof (Q2R_pos _ (proj1 ST)) as HP.
  pose proof (upd_real g m ST) as UR. assert (M1 : (1 <= m)%nat) by apply ST.
  destruct (phase_bounds g m n ST) as [P1 P2].
  assert (PA : proper_answer g a) by (rewrite Forall_forall in FA; apply FA; apply nth_error_In in N; exact N).
  assert (LH : alo i <= ahi i) by (destruct (W n a i 0 N Hi ltac:(lra)) as [_ X]; lra).
  destruct (M n a i N Hi) as [S0 X]. set (h := Q2R (ts g)) in *. set (U := Q2R (upd g)) in *.
  assert (NK : (n < length as_)%nat) by (apply nth_error_Some; congruence).
  assert (NU : at_update g n + U <= at_update g (length as_)).
  { unfold at_update. fold U. replace (INR n * U + U) with (INR (S n) * U) by (rewrite S_INR; ring).
    apply Rmult_le_compat_r; [lra|apply le_INR; lia]. }
  assert (N0 : 0 <= at_update g n) by (apply Rmult_le_pos; [apply pos_INR|fold U; lra]).
  set (e := (ahi i - alo i) * h / 4).
  assert (DB : forall s, 0 <= s <= U -> - e <= v i (at_update g n + s) - course g a (phase g n) 1 i s <= e).
  { intros s Is. destruct (piece_of h m s HP M1 ltac:(fold U in UR; lra)) as (q & Hq & Iq). rewrite S_INR in Iq.
    specialize (X q (s - INR q * h) Hq ltac:(lra)).
    replace (at_update g n + INR q * h + (s - INR q * h)) with (at_update g n + s) in X by ring. rewrite X.
    assert (QU : INR (S q) * h <= U) by (fold U in UR; rewrite UR; apply Rmult_le_compat_r; [lra|apply le_INR; lia]).
    rewrite S_INR in QU. pose proof (Rmult_le_pos (INR q) h (pos_INR q) ltac:(lra)) as Q0.
    apply interp_err; try lra.
    - apply (course_incr g m as_ vlo vhi alo ahi n a i (INR q * h) s ST FA W N Hi); fold U; lra.
    - pose proof (course_incr g m as_ vlo vhi alo ahi n a i s (INR (S q) * h) ST FA W N Hi) as Y.
      rewrite S_INR in *. fold U in Y. replace (h - (s - INR q * h)) with ((INR q + 1) * h - s) by ring. apply Y; lra. }
  assert (B := deriv_bounds 0 U (fun s => p i (at_update g n + s) - course g a (phase g n) 0 i s)
    (fun s => v i (at_update g n + s) - course g a (phase g n) 1 i s) (- e) e).
  assert (DD : forall s, 0 <= s <= U -> deriv_in 0 U (fun s => p i (at_update g n + s) - course g a (phase g n) 0 i s) s
     (v i (at_update g n + s) - course g a (phase g n) 1 i s)).
  { intros s Is. apply (deriv_minus 0 U s Is).
    - assert (Q : deriv_in (0 + - at_update g n) (at_update g (length as_) + - at_update g n)
          (fun u => p i (u - - at_update g n)) s (v i (at_update g n + s))).
      { apply deriv_shift. replace (s - - at_update g n) with (at_update g n + s) by ring. apply D; [exact Hi|lra]. }
      apply (deriv_ext _ _ (fun u => p i (u - - at_update g n))); [exact Is|intros u _; f_equal; ring|].
      apply (deriv_sub (0 + - at_update g n) (at_update g (length as_) + - at_update g n)); [lra|lra|exact Q].
    - apply (course_deriv g m); auto. }
  specialize (B DD DB 0 t ltac:(lra) ltac:(lra) ltac:(lra)). cbv beta in B.
  rewrite Rplus_0_r, S0 in B. apply Rabs_le. fold e. lra.
Qed.

Lemma accepted_limits : forall g m tol b limits goal vchk rv sd w a r, steady g m -> 0 <= tol -> dim g = 2%nat -> proper_answer g a ->
  holonomic_constraints "norm_inf" b (Q2R (horizon g)) = Some limits ->
  accepted g tol limits goal vchk rv sd w a ->
  (0 <= r)%Q -> (r + upd g <= horizon g)%Q ->
  let L := holonomic_limits b in
  forall i t, (i < dim g)%nat -> 0 <= t <= Q2R (upd g) ->
    two (vxmin L) (vymin L) i <= course g a r 1 i t <= two (vxmax L) (vymax L) i /\
    two (axmin L) (aymin L) i <= course g a r 2 i t <= two (axmax L) (aymax L) i.
Proof.
  intros g m tol b limits goal vchk rv sd w a r ST Tt D [PA _] E (SL & _) R1 R2 L i t Hi It.
  pose proof (horizon_pos g m ST) as HT. set (T := Q2R (horizon g)) in *.
  apply Q2R_nonneg in R1. apply Qle_Rle in R2. rewrite Q2R_plus in R2. fold T in R2.
  pose proof (unit_time (Q2R r + t) T HT ltac:(lra)) as Q.
  destruct (holonomic_inf_ok b T (jets (own a) ((Q2R r + t) / T)) HT) as (cs & E' & K). rewrite E in E'. injection E' as E'. subst cs.
  cbv zeta in K. destruct K as [K _].
  assert (ON : forall i o, (i < 2)%nat -> (o <= 3)%nat -> on_unit (own a i) /\ (o <= degree (sbasis (own a i)))%nat).
  { intros j o Hj Ho. rewrite own_path by lia. destruct (PA j ltac:(lia)) as (A & B & _). split; [exact A|rewrite B; exact Ho]. }
  assert (H := K ltac:(
    apply (lift_plain tol); auto; intros c Hc;
    unfold holonomic_constraints in E; cbn in E; injection E as <-; unfold holonomic_inf in Hc;
    repeat (destruct Hc as [<-|Hc]; [cbn [le0 cexpr fits mentions plain]; split; [split; [apply ON; lia|exact Logic.I]|split; reflexivity]|]); destruct Hc)).
  clear K. unfold phys, jets in H. rewrite !own_path in H by lia. unfold course. fold T. fold L in H.
  assert (C : i = 0%nat \/ i = 1%nat) by lia. destruct C as [-> | ->]; unfold two; cbn [Nat.eqb]; lra.
Qed.

Lemma course_Qeq : forall g a r r' o i t, (r == r')%Q -> course g a r o i t = course g a r' o i t.
Proof. intros. unfold course. rewrite (Qeq_eqR r r') by assumption. reflexivity. Qed.

Lemma goal_gap : forall g m tol limits goal vchk rv sd w a r i t, steady g m -> 0 <= tol -> (dim g <= 10)%nat -> proper_answer g a ->
  accepted g tol limits goal vchk rv sd w a -> (0 <= r)%Q -> (r + upd g <= horizon g)%Q ->
  (i < dim g)%nat -> 0 <= t <= Q2R (upd g) ->
  Rabs (course g a r 0 i t - nth i goal 0) <= call (slack a i) ((Q2R r + t) / Q2R (horizon g)) + drift_max tol (own a) (map cexpr (goal_cons i (nth i goal 0))).
Proof.
  intros g m tol limits goal vchk rv sd w a r i t ST Tt D [PA [PS _]] (_ & _ & SG & _) R1 R2 Hi It.
  pose proof (horizon_pos g m ST) as HT. set (T := Q2R (horizon g)) in *.
  apply Q2R_nonneg in R1. apply Qle_Rle in R2. rewrite Q2R_plus in R2. fold T in R2.
  pose proof (unit_time (Q2R r + t) T HT ltac:(lra)) as Q.
  assert (OS : own a (10 + i) = slack a i).
  { unfold own. replace (10 + i <? 10)%nat with false by (symmetry; apply Nat.ltb_ge; lia). f_equal. lia. }
  destruct (PA i Hi) as (A & _). destruct (PS i Hi) as [A' _].
  assert (K : forall e, In e (map cexpr (goal_cons i (nth i goal 0))) ->
     sval (jets (own a) ((Q2R r + t) / T)) e <= drift_max tol (own a) (map cexpr (goal_cons i (nth i goal 0)))).
  { intros e He. apply (le0_close tol (own a) (goal_cons i (nth i goal 0))); auto.
    - destruct He as [<-|[<-|[]]]; [left|right; left]; reflexivity.
    - destruct He as [<-|[<-|[]]]; cbn [le0 cexpr fits]; rewrite ?OS, ?own_path by lia;
        pose proof (Nat.le_0_l (degree (sbasis (path a i)))); pose proof (Nat.le_0_l (degree (sbasis (slack a i)))); tauto.
    - destruct He as [<-|[<-|[]]]; reflexivity. }
  pose proof (K _ (or_introl eq_refl)) as H1. pose proof (K _ (or_intror (or_introl eq_refl))) as H2.
  cbn [le0 cexpr sval] in H1, H2. unfold jets in H1, H2. rewrite OS, own_path in H1, H2 by lia. cbn [derivative] in H1, H2.
  unfold course. fold T. cbn [derivative pow]. unfold Rdiv at 1. rewrite Rinv_1, Rmult_1_r. apply Rabs_le. lra.
Qed.
