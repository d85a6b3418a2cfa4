(** Proofs: the ring guess stays in the ring; motion time and check of a guess;
    free end. *)
From Coq Require Import Reals List Bool Arith Lia Lra.
From Verif Require Import Spline_Model Vehicle_Model Vehicle_Spec Lift_Model Lift_Spec Lift_Proofs2 Lift_Proofs3 Angle_Model Angle_Proofs Warm_Model Warm_Spec Warm_Proofs.
From Verif Require Gmove_Model Gmove_Proofs3 Loop_Model.
Import ListNotations.
Local Open Scope R_scope.

Definition ring_exprs (p : R * R) (rin rout : R) : list sx :=
  [ (- circ_sx (fst p) (snd p) + SN (rin ^ 2))%sx; (circ_sx (fst p) (snd p) - SN (rout ^ 2))%sx ].

Theorem ring_close : forall tol X p rin rout tau, 0 <= tol -> on_unit (X 0%nat) -> on_unit (X 1%nat) -> 0 <= tau <= 1 ->
  solved tol X (ring_cons (fst p) (snd p) rin rout) ->
  let d := drift_max tol X (ring_exprs p rin rout) in
  rin ^ 2 - d <= apart p (at_time X tau) ^ 2 <= rout ^ 2 + d.
Proof.
  intros tol X p rin rout tau T U0 U1 H S d.
  assert (E : apart p (at_time X tau) ^ 2 = sval (jets X tau) (circ_sx (fst p) (snd p))).
  { unfold apart. rewrite <- Rsqr_pow2, Rsqr_sqrt by (apply Rplus_le_le_0_compat; apply pow2_ge_0). cbn. unfold at_time, jets, derivative. cbn. ring. }
  rewrite E.
  assert (F : fits X (circ_sx (fst p) (snd p))) by (cbn; repeat split; try apply U0; try apply U1; lia).
  pose proof (le0_close tol X _ (ring_exprs p rin rout) (- circ_sx (fst p) (snd p) + SN (rin ^ 2))%sx tau T H S (or_introl eq_refl) (or_introl eq_refl)) as A.
  pose proof (le0_close tol X _ (ring_exprs p rin rout) (circ_sx (fst p) (snd p) - SN (rout ^ 2))%sx tau T H S (or_intror (or_introl eq_refl)) (or_intror (or_introl eq_refl))) as B.
  assert (A' := A (conj F Logic.I) eq_refl). assert (B' := B (conj F Logic.I) eq_refl). fold d in A', B'.
  cbn [sval] in A', B'. lra.
Qed.
Theorem ring_stays : forall X p rin rout tau, on_unit (X 0%nat) -> on_unit (X 1%nat) -> 0 <= tau <= 1 -> 0 <= rin -> 0 <= rout ->
  solved 0 X (ring_cons (fst p) (snd p) rin rout) -> rin <= apart p (at_time X tau) <= rout.
Proof.
  intros X p rin rout tau U0 U1 H I O S.
  pose proof (ring_close 0 X p rin rout tau (Rle_refl 0) U0 U1 H S) as K. cbn zeta in K. rewrite drift_max_0 in K.
  pose proof (apart_nonneg p (at_time X tau)) as N. split; apply Rsqr_incr_0_var; trivial; unfold Rsqr; nra.
Qed.
Theorem ring_held_ends : forall X s e, ring_held X s e ->
  at_time X 0 = s /\ at_time X 1 = e /\
  forall i o tau, (i < 2)%nat -> (1 <= o <= 2)%nat -> tau = 0 \/ tau = 1 -> call (derivative (X i) o) tau = 0.
Proof.
  intros X s e H. unfold ring_held, ring_fixed in H. split; [|split].
  - unfold at_time. rewrite (surjective_pairing s).
    pose proof (H 0%nat 0%nat 0 (fst s) ltac:(cbn; tauto)) as A. pose proof (H 1%nat 0%nat 0 (snd s) ltac:(cbn; tauto)) as B.
    unfold derivative in A, B. cbn in A, B. cbn [fst snd]. f_equal; lra.
  - unfold at_time. rewrite (surjective_pairing e).
    pose proof (H 0%nat 0%nat 1 (fst e) ltac:(cbn; tauto)) as A. pose proof (H 1%nat 0%nat 1 (snd e) ltac:(cbn; tauto)) as B.
    unfold derivative in A, B. cbn in A, B. cbn [fst snd]. f_equal; lra.
  - intros i o tau Hi Ho Ht. assert (K : In (i, o, tau, 0) (ring_fixed s e)).
    { destruct i as [|[|i]]; [| |lia]; (destruct o as [|[|[|o]]]; [lia| | |lia]); destruct Ht as [-> | ->]; cbn; tauto. }
    pose proof (H i o tau 0 K). lra.
Qed.
(** the height of the segment is not kept *)
Theorem ring_height_refuted : exists cx cy z, z <> 0 /\ length cx = length cy /\ cx <> [] /\
  ~ In z (snd (ring_columns cx cy)).
Proof.
  exists [1; 2], [3; 4], 5. repeat split; try lra; try discriminate. cbn. lra.
Qed.
Theorem ring_flat : forall cx cy v, In v (snd (ring_columns cx cy)) -> v = 0.
Proof. intros cx cy v H. cbn in H. apply in_map_iff in H. destruct H as (c & <- & _). ring. Qed.

(** ** samples *)
Lemma eval_pts_sampled : forall x, In x eval_pts <-> sampled x.
Proof.
  intros x. unfold eval_pts, linspace, sampled. rewrite in_map_iff. split.
  - intros (k & <- & K). apply in_seq in K. exists k. split; [lia|]. replace (INR (100 - 1)) with 99 by (simpl; lra). field.
  - intros (k & K & ->). exists k. split; [|apply in_seq; lia]. replace (INR (100 - 1)) with 99 by (simpl; lra). field.
Qed.
Lemma fold_max_ge : forall l a, a <= fold_left Rmax l a /\ forall x, In x l -> x <= fold_left Rmax l a.
Proof.
  induction l as [|b l IH]; intros a; cbn; [split; [lra|tauto]|]. destruct (IH (Rmax a b)) as (A & B). split.
  - eapply Rle_trans; [apply Rmax_l|exact A].
  - intros x [->|H]; [eapply Rle_trans; [apply Rmax_r|exact A]|apply B, H].
Qed.
Lemma fold_max_in : forall l a, fold_left Rmax l a = a \/ In (fold_left Rmax l a) l.
Proof.
  induction l as [|b l IH]; intros a; cbn; [left; reflexivity|]. destruct (IH (Rmax a b)) as [E|H]; [|right; right; exact H].
  rewrite E. unfold Rmax. destruct (Rle_dec a b); [right; left; reflexivity|left; reflexivity].
Qed.
Lemma maxl_ge : forall l x, In x l -> x <= maxl l.
Proof. intros [|a l] x H; [destruct H|]. destruct (fold_max_ge l a) as (A & B). cbn. destruct H as [->|H]; [exact A|apply B, H]. Qed.
Lemma maxl_in : forall l, l <> [] -> In (maxl l) l.
Proof. intros [|a l] H; [congruence|]. cbn. destruct (fold_max_in l a) as [E|E]; [left; symmetry; exact E|right; exact E]. Qed.
Lemma maxl_le : forall l b, l <> [] -> (forall x, In x l -> x <= b) -> maxl l <= b.
Proof. intros l b N H. apply H, maxl_in, N. Qed.
Lemma pts_some : eval_pts <> [].
Proof. intros E. assert (L : length eval_pts = 100%nat) by apply linspace_length. rewrite E in L. discriminate. Qed.
Lemma map_some : forall (A B : Type) (f : A -> B) l, l <> [] -> map f l <> [].
Proof. intros A B f [|a l] H; [congruence|discriminate]. Qed.

Lemma peak_ge : forall o s x, sampled x -> Rabs (call (derivative s o) x) <= peak o s.
Proof. intros o s x H. apply maxl_ge. apply in_map_iff. exists x. split; [reflexivity|]. apply eval_pts_sampled, H. Qed.
Lemma peak_le : forall o s b, (forall x, sampled x -> Rabs (call (derivative s o) x) <= b) -> peak o s <= b.
Proof.
  intros o s b H. apply maxl_le; [apply map_some, pts_some|]. intros v V. apply in_map_iff in V. destruct V as (x & <- & X).
  apply H, eval_pts_sampled, X.
Qed.
Lemma sampled_0 : sampled 0.
Proof. exists 0%nat. split; [lia|]. simpl. field. Qed.
Lemma peak_nonneg : forall o s, 0 <= peak o s.
Proof. intros o s. eapply Rle_trans; [apply Rabs_pos|apply (peak_ge o s 0 sampled_0)]. Qed.

(** ** motion time *)
Lemma root3_cube : forall x, 0 <= x -> 0 <= root3 x /\ root3 x ^ 3 = x.
Proof.
  intros x H. unfold root3. destruct (Req_EM_T x 0) as [->|N]; [split; [lra|ring]|].
  destruct (Gmove_Proofs3.cbrt_cube x ltac:(lra)) as (A & B). split; [lra|exact B].
Qed.
Lemma cube_le : forall a b, 0 <= a -> 0 <= b -> a ^ 3 <= b ^ 3 -> a <= b.
Proof.
  intros a b A B H. destruct (Rle_lt_dec a b) as [L|L]; [exact L|]. exfalso.
  assert (b ^ 3 < a ^ 3); [|lra]. simpl. rewrite !Rmult_1_r.
  apply Rle_lt_trans with (b * (a * a)); [apply Rmult_le_compat_l; [lra|]; apply Rmult_le_compat; lra|].
  apply Rmult_lt_compat_r; [apply Rmult_lt_0_compat; lra|exact L].
Qed.
Lemma le_cube : forall a b, 0 <= a -> a <= b -> a ^ 3 <= b ^ 3.
Proof. intros. apply pow_incr. lra. Qed.

Lemma time_parts : forall L g T, guess_time L g = Some T -> exists j a v,
  ratio 3 (jx L) (jz L) g = Some j /\ ratio 2 (ax L) (az L) g = Some a /\ ratio 1 (vx L) (vz L) g = Some v /\
  T = 105 / 100 * Rmax (Rmax (root3 j) (sqrt a)) v.
Proof.
  intros L g T. unfold guess_time. destruct (ratio 3 _ _ g) as [j|]; [|discriminate]. destruct (ratio 2 _ _ g) as [a|]; [|discriminate].
  destruct (ratio 1 _ _ g) as [v|]; [|discriminate]. intros E. injection E as <-. exists j, a, v. repeat split.
Qed.
(** a peak over a limit, and the time *)
Lemma reach : forall P l j a v T, 0 < l -> 0 <= P -> 0 <= j -> 0 <= a -> 0 <= v -> T = 105 / 100 * Rmax (Rmax (root3 j) (sqrt a)) v ->
  0 <= T /\ (P / l <= v -> P <= l * T) /\ (P / l <= a -> P <= l * T ^ 2) /\ (P / l <= j -> P <= l * T ^ 3).
Proof.
  intros P l j a v T L HP J A V E.
  pose proof (root3_cube j J) as (R0 & R3). pose proof (sqrt_pos a) as S0. pose proof (sqrt_sqrt a A) as S2.
  pose proof (Rmax_l (Rmax (root3 j) (sqrt a)) v) as M1. pose proof (Rmax_r (Rmax (root3 j) (sqrt a)) v) as M2.
  pose proof (Rmax_l (root3 j) (sqrt a)) as M3. pose proof (Rmax_r (root3 j) (sqrt a)) as M4.
  set (M := Rmax (Rmax (root3 j) (sqrt a)) v) in *.
  assert (K : forall y, P / l <= y -> P <= l * y).
  { intros y H. replace P with (l * (P / l)) by (field; lra). apply Rmult_le_compat_l; lra. }
  split; [nra|]. split; [|split]; intros H; apply K; eapply Rle_trans; try exact H.
  - nra.
  - nra.
  - rewrite <- R3. apply le_cube; nra.
Qed.

Lemma two_le : forall l p q b, 0 < l -> Rmax p q / l = b -> p / l <= b /\ q / l <= b.
Proof.
  intros l p q b L <-. pose proof (Rinv_0_lt_compat l L) as I. pose proof (Rmax_l p q). pose proof (Rmax_r p q).
  unfold Rdiv. split; apply Rmult_le_compat_r; lra.
Qed.
Lemma ratio_pos : forall o lx lz gx gy gz b, 0 < lx -> ratio o lx lz (gx, gy, gz) = Some b ->
  b = Rmax (peak o gx) (peak o gy) / lx /\ 0 <= b.
Proof.
  intros o lx lz gx gy gz b L. unfold ratio. destruct (Req_EM_T lx 0); [lra|]. intros E. injection E as <-. split; [reflexivity|].
  pose proof (peak_nonneg o gx). pose proof (Rmax_l (peak o gx) (peak o gy)). pose proof (Rinv_0_lt_compat lx L). unfold Rdiv. nra.
Qed.
Lemma ratio_z : forall o lz gx gy gz b, 0 < lz -> ratio o 0 lz (gx, gy, gz) = Some b -> b = peak o gz / lz /\ 0 <= b.
Proof.
  intros o lz gx gy gz b L. unfold ratio. destruct (Req_EM_T 0 0); [|lra]. destruct (Req_EM_T lz 0); [lra|]. intros E. injection E as <-.
  split; [reflexivity|]. pose proof (peak_nonneg o gz). pose proof (Rinv_0_lt_compat lz L). unfold Rdiv. nra.
Qed.

Theorem time_keeps : forall L gx gy gz T, 0 < vx L -> 0 < ax L -> 0 < jx L -> guess_time L (gx, gy, gz) = Some T ->
  0 <= T /\ forall s, s = gx \/ s = gy -> keeps 1 s (vx L) T /\ keeps 2 s (ax L) T /\ keeps 3 s (jx L) T.
Proof.
  intros L gx gy gz T V A J E. destruct (time_parts _ _ _ E) as (j & a & v & Ej & Ea & Ev & ET).
  destruct (ratio_pos _ _ _ _ _ _ _ J Ej) as (Qj & Pj). destruct (ratio_pos _ _ _ _ _ _ _ A Ea) as (Qa & Pa).
  destruct (ratio_pos _ _ _ _ _ _ _ V Ev) as (Qv & Pv). symmetry in Qj, Qa, Qv.
  destruct (two_le _ _ _ _ J Qj) as (J1 & J2). destruct (two_le _ _ _ _ A Qa) as (A1 & A2). destruct (two_le _ _ _ _ V Qv) as (V1 & V2).
  split; [apply (reach 0 1 j a v T ltac:(lra) ltac:(lra) Pj Pa Pv ET)|].
  intros s Hs.
  assert (Ps : peak 1 s / vx L <= v /\ peak 2 s / ax L <= a /\ peak 3 s / jx L <= j) by (destruct Hs as [-> | ->]; auto).
  destruct Ps as (P1 & P2 & P3).
  split; [|split]; intros x X; (eapply Rle_trans; [apply peak_ge, X|]).
  - rewrite pow_1. apply (reach (peak 1 s) (vx L) j a v T V (peak_nonneg _ _) Pj Pa Pv ET), P1.
  - apply (reach (peak 2 s) (ax L) j a v T A (peak_nonneg _ _) Pj Pa Pv ET), P2.
  - apply (reach (peak 3 s) (jx L) j a v T J (peak_nonneg _ _) Pj Pa Pv ET), P3.
Qed.
Theorem time_keeps_z : forall L gx gy gz T, vx L = 0 -> ax L = 0 -> jx L = 0 -> 0 < vz L -> 0 < az L -> 0 < jz L ->
  guess_time L (gx, gy, gz) = Some T -> 0 <= T /\ keeps 1 gz (vz L) T /\ keeps 2 gz (az L) T /\ keeps 3 gz (jz L) T.
Proof.
  intros L gx gy gz T V0 A0 J0 V A J E. destruct (time_parts _ _ _ E) as (j & a & v & Ej & Ea & Ev & ET). rewrite V0, A0, J0 in *.
  destruct (ratio_z _ _ _ _ _ _ J Ej) as (Qj & Pj). destruct (ratio_z _ _ _ _ _ _ A Ea) as (Qa & Pa). destruct (ratio_z _ _ _ _ _ _ V Ev) as (Qv & Pv).
  split; [apply (reach 0 1 j a v T ltac:(lra) ltac:(lra) Pj Pa Pv ET)|].
  split; [|split]; intros x X; (eapply Rle_trans; [apply peak_ge, X|]).
  - rewrite pow_1. apply (reach (peak 1 gz) (vz L) j a v T V (peak_nonneg _ _) Pj Pa Pv ET). lra.
  - apply (reach (peak 2 gz) (az L) j a v T A (peak_nonneg _ _) Pj Pa Pv ET). lra.
  - apply (reach (peak 3 gz) (jz L) j a v T J (peak_nonneg _ _) Pj Pa Pv ET). lra.
Qed.
(** five percent above the least time that keeps the limits at the samples *)
Theorem time_least : forall L gx gy gz T T', 0 < vx L -> 0 < ax L -> 0 < jx L -> guess_time L (gx, gy, gz) = Some T -> 0 <= T' ->
  (forall s, s = gx \/ s = gy -> keeps 1 s (vx L) T' /\ keeps 2 s (ax L) T' /\ keeps 3 s (jx L) T') -> T <= 105 / 100 * T'.
Proof.
  intros L gx gy gz T T' V A J E P H. destruct (time_parts _ _ _ E) as (j & a & v & Ej & Ea & Ev & ->).
  destruct (ratio_pos _ _ _ _ _ _ _ J Ej) as (-> & Pj). destruct (ratio_pos _ _ _ _ _ _ _ A Ea) as (-> & Pa).
  destruct (ratio_pos _ _ _ _ _ _ _ V Ev) as (-> & Pv).
  destruct (H gx (or_introl eq_refl)) as (X1 & X2 & X3). destruct (H gy (or_intror eq_refl)) as (Y1 & Y2 & Y3).
  assert (K : forall o l, 0 < l -> keeps o gx l T' -> keeps o gy l T' -> Rmax (peak o gx) (peak o gy) / l <= T' ^ o).
  { intros o l Hl Kx Ky. apply Rmult_le_reg_l with l; [exact Hl|]. replace (l * (Rmax (peak o gx) (peak o gy) / l)) with (Rmax (peak o gx) (peak o gy)) by (field; lra).
    apply Rmax_lub; apply peak_le; assumption. }
  apply Rmult_le_compat_l; [lra|]. apply Rmax_lub; [apply Rmax_lub|].
  - destruct (root3_cube _ Pj) as (R0 & R3). apply cube_le; trivial. rewrite R3. apply K; assumption.
  - rewrite <- (sqrt_pow2 T' P). apply sqrt_le_1; trivial; [apply pow_le, P|]. apply K; assumption.
  - rewrite <- (pow_1 T'). apply K; assumption.
Qed.

Lemma not_high : forall o s T lim l, 0 <= T -> 0 <= l -> l <= lim -> keeps o s l T -> too_high o s T lim = false.
Proof.
  intros o s T lim l HT L0 L K. unfold too_high, Rltb.
  destruct (Rlt_dec lim _) as [C|]; [|reflexivity]. exfalso. revert C. apply Rle_not_lt.
  apply maxl_le; [apply map_some, pts_some|]. intros w W. apply in_map_iff in W. destruct W as (x & <- & X).
  apply eval_pts_sampled in X. specialize (K x X). pose proof (Rle_abs (call (derivative s o) x)) as B.
  destruct (Rle_lt_or_eq_dec 0 (T ^ o) (pow_le T o HT)) as [Q|Q].
  - apply Rmult_le_reg_r with (T ^ o); [exact Q|].
    replace (call (derivative s o) x / T ^ o * T ^ o) with (call (derivative s o) x) by (field; lra). nra.
  - rewrite <- Q in *. unfold Rdiv. rewrite Rinv_0. lra.
Qed.
Theorem guess_passes : forall L gx gy gz T, 0 < vx L <= vy L -> 0 < ax L <= ay L -> 0 < jx L <= jy L ->
  guess_time L (gx, gy, gz) = Some T -> new_segment L (gx, gy, gz) = Some T.
Proof.
  intros L gx gy gz T V A J E. unfold new_segment. rewrite E.
  destruct (time_keeps L gx gy gz T (proj1 V) (proj1 A) (proj1 J) E) as (P & H).
  destruct (H gx (or_introl eq_refl)) as (X1 & X2 & X3). destruct (H gy (or_intror eq_refl)) as (Y1 & Y2 & Y3). unfold checked.
  rewrite (not_high 1 gx T (vx L) (vx L)), (not_high 1 gy T (vy L) (vx L)), (not_high 2 gx T (ax L) (ax L)), (not_high 2 gy T (ay L) (ax L)),
    (not_high 3 gx T (jx L) (jx L)), (not_high 3 gy T (jy L) (jx L)) by (trivial; lra). reflexivity.
Qed.
Lemma time_some : forall L gx gy gz, 0 < vx L -> 0 < ax L -> 0 < jx L -> exists T, guess_time L (gx, gy, gz) = Some T.
Proof.
  intros L gx gy gz V A J. unfold guess_time, ratio. destruct (Req_EM_T (jx L) 0); [lra|]. destruct (Req_EM_T (ax L) 0); [lra|].
  destruct (Req_EM_T (vx L) 0); [lra|]. eexists; reflexivity.
Qed.
Theorem guess_passes_total : forall L gx gy gz, 0 < vx L <= vy L -> 0 < ax L <= ay L -> 0 < jx L <= jy L ->
  exists T, new_segment L (gx, gy, gz) = Some T /\ 0 <= T /\
    forall s, s = gx \/ s = gy -> keeps 1 s (vx L) T /\ keeps 2 s (ax L) T /\ keeps 3 s (jx L) T.
Proof.
  intros L gx gy gz V A J. destruct (time_some L gx gy gz) as (T & E); try lra. exists T. split; [apply guess_passes; assumption|].
  apply (time_keeps L gx gy gz T); try lra; exact E.
Qed.
Theorem checked_bound : forall L gx gy gz T, 0 < T -> checked L (gx, gy, gz) T = Some T ->
  forall x, sampled x ->
  call (derivative gx 1) x <= vx L * T /\ call (derivative gy 1) x <= vy L * T /\
  call (derivative gx 2) x <= ax L * T ^ 2 /\ call (derivative gy 2) x <= ay L * T ^ 2 /\
  call (derivative gx 3) x <= jx L * T ^ 3 /\ call (derivative gy 3) x <= jy L * T ^ 3.
Proof.
  intros L gx gy gz T P E x X. unfold checked in E.
  destruct (too_high 1 gx T (vx L)) eqn:H1; [discriminate|]. destruct (too_high 1 gy T (vy L)) eqn:H2; [discriminate|].
  destruct (too_high 2 gx T (ax L)) eqn:H3; [discriminate|]. destruct (too_high 2 gy T (ay L)) eqn:H4; [discriminate|].
  destruct (too_high 3 gx T (jx L)) eqn:H5; [discriminate|]. destruct (too_high 3 gy T (jy L)) eqn:H6; [discriminate|].
  assert (K : forall o s l, too_high o s T l = false -> call (derivative s o) x <= l * T ^ o).
  { intros o s l H. apply Rltb_no in H. pose proof (pow_lt T o P) as Q.
    assert (I : call (derivative s o) x / T ^ o <= l).
    { eapply Rle_trans; [|exact H]. apply maxl_ge. apply in_map_iff. exists x. split; [reflexivity|]. apply eval_pts_sampled, X. }
    replace (call (derivative s o) x) with (call (derivative s o) x / T ^ o * T ^ o) by (field; lra). apply Rmult_le_compat_r; lra. }
  pose proof (K _ _ _ H1) as K1. pose proof (K _ _ _ H2) as K2. rewrite pow_1 in K1, K2.
  repeat split; trivial; apply K; assumption.
Qed.

(** ** free end *)
Theorem free_slack_close : forall tol X free cond goal n k tau, 0 <= tol -> 0 <= tau <= 1 -> (k < n)%nat ->
  (forall i, (i < n)%nat -> on_unit (X i) /\ on_unit (X (10 + i)%nat)) -> solved tol X (free_cons free cond goal n) ->
  Rabs (call (X k) tau - condition free cond goal k) <=
    call (X (10 + k)%nat) tau + drift_max tol X (map cexpr (free_cons free cond goal n)).
Proof.
  intros tol X free cond goal n k tau T Ht K U S. set (c := condition free cond goal k).
  destruct (U k K) as (Uk & Us).
  assert (I : forall q, In q (Loop_Model.goal_cons k c) -> In q (free_cons free cond goal n)).
  { intros q Hq. apply in_flat_map. exists k. split; [apply in_seq; lia|exact Hq]. }
  assert (Fk : fits X (SV k 0)) by (split; [exact Uk|lia]). assert (Fs : fits X (SV (10 + k) 0)) by (split; [exact Us|lia]).
  assert (G : forall e, In (le0 e) (Loop_Model.goal_cons k c) -> fits X e -> mentions e = true ->
    sval (jets X tau) e <= drift_max tol X (map cexpr (free_cons free cond goal n))).
  { intros e He F M. apply (le0_close tol X (free_cons free cond goal n)); trivial; [apply I, He|].
    apply (in_map cexpr _ _ (I _ He)). }
  pose proof (G _ (or_introl eq_refl) (conj (conj Fk Logic.I) Fs) eq_refl) as H1.
  pose proof (G _ (or_intror (or_introl eq_refl)) (conj (conj Fk Logic.I) Fs) eq_refl) as H2.
  cbn [sval] in H1, H2. unfold jets, derivative in H1, H2. cbn [Nat.iter nat_rect] in H1, H2.
  apply Rabs_le. lra.
Qed.
Theorem free_slack : forall X free cond goal n k tau, 0 <= tau <= 1 -> (k < n)%nat ->
  (forall i, (i < n)%nat -> on_unit (X i) /\ on_unit (X (10 + i)%nat)) -> solved 0 X (free_cons free cond goal n) ->
  Rabs (call (X k) tau - condition free cond goal k) <= call (X (10 + k)%nat) tau.
Proof.
  intros X free cond goal n k tau Ht K U S.
  pose proof (free_slack_close 0 X free cond goal n k tau (Rle_refl 0) Ht K U S) as H. rewrite drift_max_0 in H. lra.
Qed.
Theorem free_stop : forall tol X free cond goal n m, (0 < m)%nat -> stops tol X (free_end free cond goal n m) ->
  call (X (n - 1)%nat) 1 = condition free cond goal (n - 1).
Proof.
  intros tol X free cond goal n m M S. destruct m as [|m]; [lia|]. cbn in S. destruct (S _ (or_introl eq_refl)) as (s & B & E).
  cbn in B, E. injection B as <-. unfold derivative in E. cbn in E. lra.
Qed.
Lemma default_in : forall k, existsb (Nat.eqb k) default_free = true <-> (k < 2)%nat.
Proof. intros [|[|k]]; cbn; split; intros; try reflexivity; try lia; discriminate. Qed.
Theorem default_condition : forall cond goal k, condition default_free cond goal k = if (k <? 2)%nat then nth k cond 0 else nth k goal 0.
Proof. intros cond goal [|[|k]]; reflexivity. Qed.
Lemma in_free : forall k free, existsb (Nat.eqb k) free = true <-> In k free.
Proof.
  intros k free. rewrite existsb_exists. split; [intros (x & H & E); apply Nat.eqb_eq in E; subst; exact H|].
  intros H. exists k. split; [exact H|apply Nat.eqb_refl].
Qed.
Theorem free_condition : forall free cond goal k, ~ In k free -> condition free cond goal k = nth k goal 0.
Proof. intros free cond goal k H. unfold condition. destruct (existsb _ free) eqn:E; [apply in_free in E; contradiction|reflexivity]. Qed.
(** every free component has a variable of its own *)
Theorem free_own : forall free n, exists f, (forall cond goal k, In k free -> condition free cond goal k = nth (f k) cond 0) /\
  (forall j k, In j free -> In k free -> f j = f k -> j = k) /\
  (forall k, (k < n)%nat -> In k free -> (f k < length (nodup Nat.eq_dec free))%nat).
Proof.
  intros free n. set (g := fun j => existsb (Nat.eqb j) free). exists (fun k => length (filter g (seq 0 k))).
  assert (M : forall j k, (j < k)%nat -> In j free -> (length (filter g (seq 0 j)) < length (filter g (seq 0 k)))%nat).
  { intros j k J I. replace k with (j + S (k - j - 1))%nat by lia. rewrite seq_app, filter_app, app_length. cbn [plus seq filter].
    assert (G : g j = true) by (apply in_free, I). rewrite G. cbn. lia. }
  split; [|split].
  - intros cond goal k I. unfold condition. assert (G : existsb (Nat.eqb k) free = true) by (apply in_free, I). rewrite G. reflexivity.
  - intros j k J K E. destruct (Nat.lt_trichotomy j k) as [L|[L|L]]; trivial; [pose proof (M j k L J)|pose proof (M k j L K)]; lia.
  - intros k _ K. assert (I : incl (k :: filter g (seq 0 k)) (nodup Nat.eq_dec free)).
    { intros x [<-|H]; apply nodup_In; trivial. apply filter_In in H. apply in_free, H. }
    apply NoDup_incl_length in I; [cbn in I; lia|]. constructor; [|apply NoDup_filter, seq_NoDup].
    intros H. apply filter_In in H. destruct H as (H & _). apply in_seq in H. lia.
Qed.
