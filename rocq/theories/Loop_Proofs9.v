(** The reported objective bounds the accumulated distance to the goal. *)
From Coq Require Import String Reals QArith Qreals ZArith Lra Lia List Arith Bool.
From Coq Require Lqa.
From Verif Require Import Spline_Model Spline_Spec Spline_Proofs Spline_Proofs3 Splop_Spec Vehicle_Model Vehicle_Spec Vehicle_Proofs Vehicle_Proofs2 Quad_Proofs
  Wheel_Proofs Lift_Model Lift_Spec Lift_Proofs Lift_Proofs2 Lift_Proofs3 Lift_Proofs4
  Loop_Model Loop_Spec Loop_Proofs Loop_Proofs2 Loop_Proofs3 Loop_Proofs4 Loop_Proofs5 Loop_Proofs6 Loop_Proofs7.
From Verif Require Timing_Model Timing_Proofs Timing_Proofs2.
Import ListNotations.
Local Open Scope R_scope.

Lemma inner_supports : forall b, clamped_on b 0 1 -> (forall t, 0 < t < 1 -> mult_le b t (degree b)) -> supports_positive b.
Proof.
  intros b ((Hs & Hl) & (C1 & C2 & C3 & C4) & E0 & E1) M i Hi.
  assert (L : nth i (knots b) 0 <= nth (i + degree b + 1) (knots b) 0) by (apply Hs; lia).
  destruct (Rle_lt_or_eq_dec _ _ L) as [K|K]; [exact K|exfalso].
  assert (A : 0 < nth i (knots b) 0).
  { pose proof (Hs (degree b + 1)%nat (i + degree b + 1)%nat ltac:(lia) ltac:(lia)). lra. }
  assert (B : nth i (knots b) 0 < 1).
  { pose proof (Hs i (length (knots b) - degree b - 2)%nat ltac:(lia) ltac:(lia)). lra. }
  apply (M (nth i (knots b) 0) (conj A B) i); [lia|]. split; [reflexivity|]. apply Rle_antisym.
  - rewrite K. apply Hs; lia.
  - apply Hs; lia.
Qed.

Lemma ri_unit : forall s, on_unit s -> on_unit (running_integral s).
Proof.
  intros s [((Hs & Hl) & (C1 & C2 & C3 & C4) & E0 & E1) SZ]. split; [|apply ri_sized; split; assumption].
  rewrite ri_basis. split; [apply rib_wf; split; assumption|]. set (b := sbasis s) in *.
  assert (D : degree (rib b) = S (degree b)) by (cbn; lia). assert (LN := rib_length b).
  split; [|split].
  - unfold clamped. rewrite D, LN. repeat split.
    + rewrite rib_0, rib_mid by lia. exact C1.
    + replace (length (knots b) + 2 - S (degree b) - 1)%nat with (S (length (knots b) - degree b - 1)) by lia.
      replace (length (knots b) + 2 - 1)%nat with (S (length (knots b))) by lia. rewrite rib_mid, rib_end by lia. exact C2.
    + replace (S (degree b) + 1)%nat with (S (degree b + 1)) by lia. rewrite !rib_mid by lia. exact C3.
    + replace (length (knots b) + 2 - S (degree b) - 1)%nat with (S (length (knots b) - degree b - 1)) by lia.
      replace (length (knots b) + 2 - S (degree b) - 2)%nat with (S (length (knots b) - degree b - 2)) by lia.
      rewrite !rib_mid by lia. exact C4.
  - rewrite rib_0. exact E0.
  - rewrite LN. replace (length (knots b) + 2 - 1)%nat with (S (length (knots b))) by lia. rewrite rib_end. exact E1.
Qed.

(* the running integral is an antiderivative on the whole interval *)
Lemma ri_deriv : forall s, on_unit s -> (forall t, 0 < t < 1 -> mult_le (sbasis s) t (degree (sbasis s))) ->
  forall t, 0 <= t <= 1 -> deriv_in 0 1 (call (running_integral s)) t (call s t).
Proof.
  intros s U M t It. pose proof U as [CL SZ].
  pose proof (jets_smooth (fun _ => running_integral s) 0 0 (ri_unit s U)) as J. cbv beta in J. rewrite ri_basis in J.
  assert (D : degree (rib (sbasis s)) = S (degree (sbasis s))) by (cbn; lia). rewrite D in J.
  specialize (J ltac:(lia)). assert (DR : derivative (running_integral s) 1 = s).
  { apply derivative_running_integral; [apply CL|exact SZ|apply inner_supports; assumption]. }
  assert (K : smooth 0 1 (fun tau => jets (fun _ => running_integral s) tau 0) 0).
  { apply J. intros u Hu. replace (S (degree (sbasis s)) - 0 - 1)%nat with (degree (sbasis s)) by lia.
    destruct CL as (WF & (C1 & C2 & _) & E0 & E1).
    apply rib_mult; [exact WF| |apply M, Hu]. unfold dom_left, dom_right. rewrite <- C1, C2, E0, E1. exact Hu. }
  specialize (K t It).
  change (deriv_in 0 1 (call (running_integral s)) t (call (derivative (running_integral s) 1) t)) in K. rewrite DR in K. exact K.
Qed.

Lemma slack_ok : forall g a i, proper_answer g a -> (i < dim g)%nat -> on_unit (slack a i) /\
  forall t, 0 < t < 1 -> mult_le (sbasis (slack a i)) t (degree (sbasis (slack a i))).
Proof.
  intros g a i (PA & PS & _) Hi. destruct (PS i Hi) as [A B]. split; [exact A|]. intros t It. rewrite B.
  destruct (PA i Hi) as (U & D & M). rewrite D. intros k Hk [K1 K2]. apply (M t It k); [lia|]. split; [exact K1|].
  destruct U as [((Hs & Hl) & _) _]. apply Rle_antisym.
  - rewrite <- K2. apply Hs; lia.
  - rewrite <- K1 at 1. apply Hs; lia.
Qed.

(** what an update adds, per component *)
Definition share (g : settings) (a : answer) (r : Q) (i : nat) : R :=
  Q2R (horizon g) * definite_integral (slack a i) (Q2R r / Q2R (horizon g)) (Q2R r / Q2R (horizon g) + Q2R (upd g) / Q2R (horizon g)).

Lemma gap_step : forall g m a n i I d e, steady g m -> proper_answer g a -> (i < dim g)%nat ->
  (forall t, 0 <= t <= Q2R (upd g) -> deriv_in 0 (Q2R (upd g)) I t (d t)) ->
  (forall t, 0 <= t <= Q2R (upd g) -> d t <= call (slack a i) ((Q2R (phase g n) + t) / Q2R (horizon g)) + e * t) ->
  I (Q2R (upd g)) - I 0 <= share g a (phase g n) i + e * Q2R (upd g) ^ 2 / 2.
Proof.
  intros g m a n i I d e ST PA Hi D B. pose proof (horizon_pos g m ST) as HT. set (T := Q2R (horizon g)) in *.
  destruct (phase_bounds g m n ST) as [R1 R2]. apply Q2R_nonneg in R1. apply Qle_Rle in R2. rewrite Q2R_plus in R2. fold T in R2.
  pose proof (Q2R_pos _ (upd_pos g m ST)) as UP. set (U := Q2R (upd g)) in *. set (r := Q2R (phase g n)) in *.
  destruct (slack_ok g a i PA Hi) as [SU SM].
  set (F := fun t => T * call (running_integral (slack a i)) ((r + t) / T)).
  assert (DF : forall t, 0 <= t <= U -> deriv_in 0 U F t (call (slack a i) ((r + t) / T))).
  { intros t It.
    pose proof (unit_time (r + t) T HT ltac:(lra)) as Q.
    pose proof (ri_deriv (slack a i) SU SM) as RD.
    assert (X : deriv_in 0 T (fun u => T * call (running_integral (slack a i)) (u / T)) (r + t) (call (slack a i) ((r + t) / T))).
    { replace (call (slack a i) ((r + t) / T)) with (T * (call (slack a i) ((r + t) / T) / T)) by (field; lra).
      apply (deriv_scal 0 T (r + t) ltac:(lra)).
      pose proof (phys_smooth T (fun tau o => call (match o with 0%nat => running_integral (slack a i) | _ => slack a i end) tau) 0 HT) as PS.
      assert (S1 : smooth 0 1 (fun tau o => call (match o with 0%nat => running_integral (slack a i) | _ => slack a i end) tau) 0) by (intros u Iu; apply RD, Iu).
      specialize (PS S1 (r + t) ltac:(lra)).
      apply (deriv_ext _ _ (fun u => phys T ((fun o => call (match o with 0%nat => running_integral (slack a i) | _ => slack a i end) (u / T))) 0));
        [lra|intros; unfold phys; cbn; field|].
      unfold phys in PS. cbn [pow] in PS. rewrite Rmult_1_r in PS.
      apply (deriv_ext _ _ (fun u => call (running_integral (slack a i)) (u / T) / 1)); [lra|intros; unfold phys; reflexivity|exact PS]. }
    assert (Y : deriv_in (0 + - r) (T + - r) (fun u => T * call (running_integral (slack a i)) ((u - - r) / T)) t (call (slack a i) ((r + t) / T))).
    { apply (deriv_shift 0 T (- r) (fun u => T * call (running_integral (slack a i)) (u / T))).
      replace (t - - r) with (r + t) by ring. exact X. }
    apply (deriv_ext _ _ (fun u => T * call (running_integral (slack a i)) ((u - - r) / T))); [exact It|intros u _; unfold F; do 3 f_equal; ring|].
    apply (deriv_sub (0 + - r) (T + - r)); [lra|lra|exact Y]. }
  assert (G := deriv_grows 0 U (fun t => F t + e / 2 * t ^ 2 - I t)
    (fun t => call (slack a i) ((r + t) / T) + e / 2 * (2 * t * 1) - d t)).
  assert (H : (fun t => F t + e / 2 * t ^ 2 - I t) 0 <= (fun t => F t + e / 2 * t ^ 2 - I t) U).
  { apply G; try lra.
    - intros t It. apply (deriv_minus 0 U t It); [|apply D, It]. apply (deriv_plus 0 U t It); [apply DF, It|].
      apply (deriv_scal 0 U t It). apply (deriv_pow2 0 U t It (fun u => u)). apply deriv_id.
    - intros t It. specialize (B t It). lra. }
  cbv beta in H. unfold share. fold T. fold U. fold r. unfold definite_integral.
  pose proof (ri_unit (slack a i) SU) as [_ RZ]. rewrite !evalspline_call by exact RZ. unfold F in H.
  replace ((r + 0) / T) with (r / T) in H by (f_equal; ring). replace ((r + U) / T) with (r / T + U / T) in H by (field; lra). lra.
Qed.

(** ** the accumulated objective *)
Fixpoint accrued (g : settings) (n : nat) (as_ : list answer) : R :=
  match as_ with [] => 0 | a :: r => total (dim g) (share g a (phase g n)) + accrued g (S n) r end.

Lemma total_S : forall n f, total (S n) f = total n f + f n.
Proof.
  intros n f. unfold total. rewrite seq_S, map_app, fold_right_app. cbn. rewrite Rplus_0_r.
  generalize (map f (seq 0 n)) as l. induction l as [|x l IH]; cbn; lra.
Qed.
Lemma total_ext : forall n f h, (forall i, (i < n)%nat -> f i = h i) -> total n f = total n h.
Proof. intros n f h E. induction n as [|n IH]; [reflexivity|]. rewrite !total_S, IH, E; auto. Qed.
Lemma total_le : forall n f h, (forall i, (i < n)%nat -> f i <= h i) -> total n f <= total n h.
Proof. intros n f h E. induction n as [|n IH]; [unfold total; cbn; lra|]. rewrite !total_S. pose proof (E n ltac:(lia)). pose proof (IH (fun i Hi => E i ltac:(lia))). lra. Qed.
Lemma total_add : forall n f h, total n (fun i => f i + h i) = total n f + total n h.
Proof. intros n f h. induction n as [|n IH]; [unfold total; cbn; lra|]. rewrite !total_S, IH. lra. Qed.
Lemma total_scal : forall n c f, total n (fun i => c * f i) = c * total n f.
Proof. intros n c f. induction n as [|n IH]; [unfold total; cbn; lra|]. rewrite !total_S, IH. lra. Qed.

Lemma fold_total : forall n f, fold_left (fun acc i => acc + f i) (seq 0 n) 0 = total n f.
Proof. intros n f. induction n as [|n IH]; [reflexivity|]. rewrite seq_S, fold_left_app, IH, total_S. reflexivity. Qed.

Lemma accrued_snoc : forall g as_ n a, accrued g n (as_ ++ [a]) = accrued g n as_ + total (dim g) (share g a (phase g (n + length as_))).
Proof.
  intros g as_. induction as_ as [|b as_ IH]; intros n a; cbn [app accrued List.length].
  - rewrite Nat.add_0_r. lra.
  - rewrite IH. replace (S n + List.length as_)%nat with (n + S (List.length as_))%nat by lia. lra.
Qed.
Lemma objective_snoc : forall g as_ a w acc w' J, passes g as_ w = Some w' -> objective g as_ w acc = Some J ->
  objective g (as_ ++ [a]) w acc = objective g [a] w' J.
Proof.
  intros g as_. induction as_ as [|b as_ IH]; intros a w acc w' J P O; cbn [passes objective app] in *.
  - injection P as <-. injection O as <-. reflexivity.
  - destruct (prepared g w) as [w1|]; [|discriminate]. destruct (pass g b w) as [w2|]; [|discriminate].
    apply (IH a w2 _ w' J P O).
Qed.

Lemma part_share : forall g m a t s n, steady g m -> (rel g t s == phase g n)%Q ->
  part_objective g a t s (Timing_Model.sim_time (horizon g) (rel g t s) (upd g)) = total (dim g) (share g a (phase g n)).
Proof.
  intros g m a t s n ST E. unfold part_objective. rewrite (sim_time_full g m t s ST). rewrite (Qeq_eqR _ _ E). apply fold_total.
Qed.

Lemma all_prefix : forall P g as_ bs w, all_answers P g (as_ ++ bs) w -> all_answers P g as_ w.
Proof.
  intros P g as_. induction as_ as [|a as_ IH]; intros bs w H; [exact Logic.I|]. destruct H as [A B]. split; [exact A|].
  intros w2 E. apply (IH bs). apply B, E.
Qed.

Theorem objective_accrued : forall g m (P : world -> answer -> Prop) s0 i0 obs as_, steady g m -> consistent g ->
  length s0 = dim g -> length i0 = dim g ->
  (forall w a, P w a -> starts_right g w a) -> Forall (proper_answer g) as_ ->
  all_answers P g as_ (world0 s0 i0 obs) ->
  objective g as_ (world0 s0 i0 obs) 0 = Some (accrued g 0 as_).
Proof.
  intros g m P s0 i0 obs as_ ST CO LS LI PS. induction as_ as [|a as_ IH] using rev_ind; intros FA AA; [reflexivity|].
  assert (FA0 : Forall (proper_answer g) as_) by (apply Forall_app in FA; apply FA).
  pose proof (all_prefix _ _ _ _ _ AA) as AA0.
  specialize (IH FA0 AA0). pose proof (proj1 (all_snoc _ _ _ _ _) AA) as [_ NA].
  destruct (loop_log g m P s0 i0 obs as_ ST CO LS LI PS FA0 AA0) as (w' & PW & ST' & _).
  destruct (loop_log g m P s0 i0 obs (as_ ++ [a]) ST CO LS LI PS FA AA) as (w2 & PW2 & _ & _).
  rewrite passes_snoc, PW in PW2.
  rewrite (objective_snoc g as_ a _ 0 w' _ PW IH). cbn [objective]. rewrite PW2.
  rewrite accrued_snoc. cbn [Nat.add].
  assert (EX : exists w1, prepared g w' = Some w1 /\ (now w1 == inject_Z (Z.of_nat (length as_)) * upd g)%Q /\ (start_time w1 == 0)%Q).
  { unfold pass, update in PW2. destruct (prepared g w') as [w1|] eqn:PR; [|discriminate]. exists w1. split; [reflexivity|].
    destruct ST' as [[-> ->]|(l & p & G & L & _)].
    - rewrite prepared_first in PR. injection PR as <-. cbn. split; [|reflexivity]. change (inject_Z 0) with 0%Q. ring.
    - unfold prepared in PR. destruct (predict g w' _ _ _) as [[s i]|]; [|discriminate]. injection PR as <-. cbn [now start_time].
      destruct G as (G1 & G2 & G3 & G4 & G5 & G6 & _). split; [assumption|].
      match goal with |- context [iteration0 w'] => destruct (iteration0 w') eqn:IT end; [|assumption].
      congruence. }
  destruct EX as (w1 & -> & N & S0). rewrite (part_share g m a (now w1) (start_time w1) (length as_) ST); [reflexivity|].
  apply rel_phase; assumption.
Qed.
