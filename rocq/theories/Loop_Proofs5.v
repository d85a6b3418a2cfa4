(** The motion behind the log. *)
From Coq Require Import Reals QArith Qreals ZArith Lra Lia List Arith Bool.
From Verif Require Import Spline_Model Spline_Spec Spline_Proofs3 Splop_Spec Vehicle_Model Vehicle_Spec Vehicle_Proofs Quad_Proofs
  Wheel_Proofs Lift_Model Lift_Spec Lift_Proofs2 Lift_Proofs4
  Loop_Model Loop_Spec Loop_Proofs Loop_Proofs2 Loop_Proofs3 Loop_Proofs4.
From Coq Require Lqa.
From Verif Require Timing_Model Timing_Proofs Timing_Proofs2.
Import ListNotations.
Local Open Scope R_scope.

Lemma deriv_sub : forall lo hi lo' hi' f t d, lo <= lo' -> hi' <= hi -> deriv_in lo hi f t d -> deriv_in lo' hi' f t d.
Proof.
  intros lo hi lo' hi' f t d A B D eps E. destruct (D eps E) as (delta & P & Q). exists delta. split; [exact P|].
  intros h N L J. apply Q; [exact N|exact L|lra].
Qed.

Lemma course_deriv : forall g m a r o i t, steady g m -> proper_answer g a -> (i < dim g)%nat -> (o <= 1)%nat ->
  (0 <= r)%Q -> (r + upd g <= horizon g)%Q -> 0 <= t <= Q2R (upd g) ->
  deriv_in 0 (Q2R (upd g)) (course g a r o i) t (course g a r (S o) i t).
Proof.
  intros g m a r o i t ST [PA _] Hi Ho R0 R1 I. destruct (PA i Hi) as (U & DG & M).
  pose proof (horizon_pos g m ST) as HT. set (T := Q2R (horizon g)) in *.
  apply Q2R_nonneg in R0. apply Qle_Rle in R1. rewrite Q2R_plus in R1. fold T in R1.
  assert (SM : smooth 0 1 (fun tau => jets (path a) tau i) o).
  { apply jets_smooth; [exact U|lia|]. intros u Hu. apply (mult_le_weaken _ _ 1); [lia|apply U|apply M, Hu]. }
  pose proof (phys_smooth T _ o HT SM (Q2R r + t) ltac:(lra)) as D.
  pose proof (deriv_shift 0 T (- Q2R r) (fun u => phys T (jets (path a) (u / T) i) o) t (phys T (jets (path a) ((Q2R r + t) / T) i) (S o))) as X.
  replace (t - - Q2R r) with (Q2R r + t) in X by ring. specialize (X D).
  apply (deriv_sub _ _ 0 (Q2R (upd g))) in X; [|lra|lra].
  apply (deriv_ext _ _ (fun u => phys T (jets (path a) ((u - - Q2R r) / T) i) o)); [exact I| |exact X].
  intros u _. unfold phys, jets, course. fold T. replace (u - - Q2R r) with (Q2R r + u) by ring. reflexivity.
Qed.

Lemma phase_bounds : forall g m k, steady g m -> (0 <= phase g k)%Q /\ (phase g k + upd g <= horizon g)%Q.
Proof.
  intros g m k (A & B & C & D & E). unfold phase.
  destruct (Timing_Proofs2.rel_range (knot_time g) (inject_Z (Z.of_nat k) * upd g) D) as [F G]. split; [exact F|]. Lqa.lra.
Qed.

(** linear interpolation of the inputs and the motion it causes *)
Definition lin (h u0 u1 t : R) : R := u0 + t / h * (u1 - u0).
Definition ramped (h x u0 u1 t : R) : R := x + t * u0 + t ^ 2 / (2 * h) * (u1 - u0).

Lemma ramped_deriv : forall h x u0 u1 t, 0 < h -> 0 <= t <= h -> deriv_in 0 h (ramped h x u0 u1) t (lin h u0 u1 t).
Proof.
  intros h x u0 u1 t P I. unfold ramped, lin.
  apply (deriv_eq 0 h t _ (0 + 1 * u0 + (u1 - u0) / (2 * h) * (2 * t * 1))).
  - apply (deriv_ext 0 h (fun t => (fun _ => x) t + (fun u => u * u0) t + (u1 - u0) / (2 * h) * (fun u => u ^ 2) t));
      [exact I|intros; field; lra|].
    apply (deriv_plus 0 h t I (fun t => (fun _ => x) t + (fun u => u * u0) t) (fun t => (u1 - u0) / (2 * h) * (fun u => u ^ 2) t)).
    + apply (deriv_plus 0 h t I (fun _ => x) (fun u => u * u0)); [apply deriv_const|].
      apply (deriv_eq 0 h t _ (1 * u0 + t * 0)); [|ring].
      apply (deriv_mult 0 h t I (fun u => u) (fun _ => u0)); [apply deriv_id|apply deriv_const].
    + apply (deriv_scal 0 h t I (fun u => u ^ 2)). apply (deriv_pow2 0 h t I (fun u => u)). apply deriv_id.
  - field. lra.
Qed.

Lemma joined_ends : forall h F K j, 0 < h -> (1 <= K)%nat -> (forall n, (S n < K)%nat -> F (S n) 0 = F n h) -> (j <= K)%nat ->
  joined h F K (INR j * h) = if (j =? K)%nat then F (K - 1)%nat h else F j 0.
Proof.
  intros h F K j P K1 C J. destruct (Nat.eqb_spec j K) as [->|NE].
  - rewrite (joined_at h F K ltac:(lra) C (K - 1)%nat); [|lia|].
    + f_equal. rewrite minus_INR by lia. cbn [INR]. ring.
    + replace (S (K - 1)) with K by lia. rewrite minus_INR by lia. cbn [INR]. split; [|lra].
      apply Rmult_le_compat_r; lra.
  - rewrite (joined_at h F K ltac:(lra) C j); [|lia|].
    + f_equal. ring.
    + rewrite S_INR. split; [lra|]. apply Rmult_le_compat_r; lra.
Qed.

Lemma recorded_by : forall g p v l, (forall j, (j < length l)%nat ->
    (c_time (nth j l no_column) == inject_Z (Z.of_nat j) * ts g)%Q /\
    length (c_state (nth j l no_column)) = dim g /\ length (c_input (nth j l no_column)) = dim g) ->
  (forall j i, (j < length l)%nat -> (i < dim g)%nat ->
     p i (INR j * Q2R (ts g)) = nth i (c_state (nth j l no_column)) 0 /\
     v i (INR j * Q2R (ts g)) = nth i (c_input (nth j l no_column)) 0) -> recorded g p v l.
Proof.
  intros g p v l A B j J. destruct (A j J) as (T & S & I). split; [exact T|].
  split; symmetry; apply map_seq_nth; try assumption; intros i Hi; apply (B j i J Hi).
Qed.

Lemma motion_ideal : forall g m as_ l, steady g m -> Forall (proper_answer g) as_ -> as_ <> [] -> logs g m as_ l ->
  ideal_update g = true ->
  exists p v, recorded g p v l /\ follows g as_ p v /\
    forall i t, (i < dim g)%nat -> 0 <= t <= at_update g (length as_) ->
      deriv_in 0 (at_update g (length as_)) (p i) t (v i t).
Proof.
  intros g m as_ l ST FA NE (L1 & L2 & L3 & L4 & L5) ID. rewrite ID in L5.
  set (K := length as_) in *. assert (K1 : (1 <= K)%nat) by (destruct as_; [congruence|cbn; lia]).
  pose proof (upd_pos g m ST) as UQ. pose proof (Q2R_pos _ UQ) as UP. set (U := Q2R (upd g)) in *.
  pose proof (upd_real g m ST) as UR. fold U in UR.
  assert (exists a0 : answer, True) as [a0 _] by (destruct as_ as [|a0 r]; [congruence|exists a0; exact Logic.I]).
  set (F o i n t := course g (nth n as_ a0) (phase g n) o i t).
  assert (NTH : forall n, (n < K)%nat -> nth_error as_ n = Some (nth n as_ a0)) by (intros; apply nth_error_nth'; assumption).
  assert (PR : forall n, (n < K)%nat -> proper_answer g (nth n as_ a0)).
  { intros n Hn. rewrite Forall_forall in FA. apply FA. apply nth_In. exact Hn. }
  assert (ST0 : forall n q i, (n < K)%nat -> (q <= m)%nat -> (i < dim g)%nat ->
     nth i (c_state (nth (n * m + q) l no_column)) 0 = F 0%nat i n (INR q * Q2R (ts g)) /\
     nth i (c_input (nth (n * m + q) l no_column)) 0 = F 1%nat i n (INR q * Q2R (ts g))).
  { intros n q i Hn Hq Hi. rewrite (L5 n _ q (NTH n Hn) Hq), (L3 n _ q (NTH n Hn) Hq).
    rewrite !Timing_Proofs.nth_map_seq by exact Hi. split; reflexivity. }
  assert (Z0 : INR 0 * Q2R (ts g) = 0) by (cbn; ring).
  assert (CON : forall o i n, (o <= 1)%nat -> (i < dim g)%nat -> (S n < K)%nat -> F o i (S n) 0 = F o i n U).
  { intros o i n Ho Hi Hn. destruct (ST0 (S n) 0%nat i ltac:(lia) ltac:(lia) Hi) as [A B].
    destruct (ST0 n m i ltac:(lia) ltac:(lia) Hi) as [A' B'].
    replace (S n * m + 0)%nat with (n * m + m)%nat in A, B by lia. rewrite Z0 in A, B. rewrite <- UR in A', B'.
    destruct o as [|[|o]]; [congruence|congruence|lia]. }
  exists (fun i => joined U (F 0%nat i) K), (fun i => joined U (F 1%nat i) K). split; [|split].
  - apply recorded_by; [exact L2|]. intros j i J Hi.
    assert (M1 : (1 <= m)%nat) by apply ST.
    assert (exists n q, (n < K)%nat /\ (q <= m)%nat /\ j = (n * m + q)%nat) as (n & q & Hn & Hq & ->).
    { rewrite L1 in J. destruct (Nat.eq_dec j (K * m)) as [E|E].
      - exists (K - 1)%nat, m. split; [lia|]. split; [lia|]. rewrite E.
        assert (KS : K = S (K - 1)) by lia. rewrite KS at 1. rewrite Nat.mul_succ_l. reflexivity.
      - exists (j / m)%nat, (j mod m)%nat. pose proof (Nat.mod_upper_bound j m ltac:(lia)). split.
        + apply Nat.div_lt_upper_bound; [lia|]. rewrite Nat.mul_comm. lia.
        + split; [lia|]. rewrite (Nat.div_mod j m) at 1 by lia. lia. }
    destruct (ST0 n q i Hn Hq Hi) as [A B]. rewrite A, B.
    assert (TQ : INR (n * m + q) * Q2R (ts g) = INR n * U + INR q * Q2R (ts g)).
    { rewrite plus_INR, mult_INR, UR. ring. }
    assert (QU : 0 <= INR q * Q2R (ts g) <= U).
    { rewrite UR. pose proof (Q2R_pos _ (proj1 ST)). pose proof (pos_INR q). apply le_INR in Hq.
      split; [apply Rmult_le_pos; lra|apply Rmult_le_compat_r; lra]. }
    rewrite TQ. split; rewrite (joined_at U _ K ltac:(lra)) with (n := n); try assumption; try (rewrite S_INR; lra);
      try (intros; apply CON; auto; lia); f_equal; ring.
  - intros n a i t N Hi I. assert (Hn : (n < K)%nat) by (apply nth_error_Some; congruence).
    unfold at_update. fold U in I |- *.
    rewrite (joined_at U (F 0%nat i) K ltac:(lra)) with (n := n); [|intros; apply CON; auto; lia|exact Hn|rewrite S_INR; lra].
    rewrite (joined_at U (F 1%nat i) K ltac:(lra)) with (n := n); [|intros; apply CON; auto; lia|exact Hn|rewrite S_INR; lra].
    replace (INR n * U + t - INR n * U) with t by ring. unfold F.
    rewrite (nth_error_nth _ _ a0 N). split; reflexivity.
  - intros i t Hi I. unfold at_update in *. fold U in I |- *. apply joined_deriv; [exact UP| |intros n Hn; split; apply CON; auto; lia|exact I].
    intros n u Hn Iu. destruct (phase_bounds g m n ST). unfold F. apply (course_deriv g m); auto.
Qed.

Lemma motion_default : forall g m as_ l, steady g m -> as_ <> [] -> logs g m as_ l ->
  ideal_update g = false ->
  exists p v, recorded g p v l /\ interpolates g m as_ p v /\
    forall i t, (i < dim g)%nat -> 0 <= t <= at_update g (length as_) ->
      deriv_in 0 (at_update g (length as_)) (p i) t (v i t).
Proof.
  intros g m as_ l ST NE (L1 & L2 & L3 & L4 & L5) ID. rewrite ID in L5.
  set (K := length as_) in *. assert (K1 : (1 <= K)%nat) by (destruct as_; [congruence|cbn; lia]).
  assert (M1 : (1 <= m)%nat) by apply ST.
  pose proof (Q2R_pos _ (proj1 ST)) as HP. set (h := Q2R (ts g)) in *.
  pose proof (upd_real g m ST) as UR. fold h in UR.
  set (N := (K * m)%nat) in *. assert (N1 : (1 <= N)%nat) by (unfold N; nia).
  set (X i j := nth i (c_state (nth j l no_column)) 0). set (u i j := nth i (c_input (nth j l no_column)) 0).
  assert (XS : forall i j, (j < N)%nat -> X i (S j) = X i j + h / 2 * (u i j + u i (S j))).
  { intros i j J. unfold X, u. rewrite L5 by lia.
    destruct (L2 j ltac:(lia)) as (_ & A & B). destruct (L2 (S j) ltac:(lia)) as (_ & A' & B').
    apply (trapezoid_nth h _ _ _ (dim g)); assumption. }
  set (F i j := ramped h (X i j) (u i j) (u i (S j))). set (G i j := lin h (u i j) (u i (S j))).
  assert (F0 : forall i j, F i j 0 = X i j) by (intros; unfold F, ramped; field; lra).
  assert (G0 : forall i j, G i j 0 = u i j) by (intros; unfold G, lin; field; lra).
  assert (Fh : forall i j, (j < N)%nat -> F i j h = X i (S j)) by (intros; rewrite XS by assumption; unfold F, ramped; field; lra).
  assert (Gh : forall i j, G i j h = u i (S j)) by (intros; unfold G, lin; field; lra).
  assert (CF : forall i n, (S n < N)%nat -> F i (S n) 0 = F i n h) by (intros; rewrite F0, Fh by lia; reflexivity).
  assert (CG : forall i n, (S n < N)%nat -> G i (S n) 0 = G i n h) by (intros; rewrite G0, Gh; reflexivity).
  assert (PAT : forall i j, (j <= N)%nat -> joined h (F i) N (INR j * h) = X i j /\ joined h (G i) N (INR j * h) = u i j).
  { intros i j J. rewrite !joined_ends by (auto; apply CF || apply CG).
    destruct (Nat.eqb_spec j N) as [->|E]; [|rewrite F0, G0; split; reflexivity].
    rewrite Fh, Gh by lia. replace (S (N - 1)) with N by lia. split; reflexivity. }
  exists (fun i => joined h (F i) N), (fun i => joined h (G i) N). split; [|split].
  - apply recorded_by; [exact L2|]. intros j i J Hi. apply PAT. lia.
  - intros n a i E Hi. assert (Hn : (n < K)%nat) by (apply nth_error_Some; congruence).
    assert (AT : at_update g n = INR (n * m) * h) by (unfold at_update; rewrite UR, mult_INR; ring).
    assert (NM : (n * m + m <= N)%nat).
    { unfold N. assert (S n * m <= K * m)%nat by (apply Nat.mul_le_mono_r; lia). lia. }
    split.
    + rewrite AT. rewrite (proj1 (PAT i (n * m)%nat ltac:(lia))). unfold X. rewrite (L4 n a E).
      apply (Timing_Proofs.nth_map_seq (fun i => course g a (phase g n) 0 i 0)). exact Hi.
    + fold h. intros q t Q I. rewrite AT.
      replace (INR (n * m) * h + INR q * h + t) with (INR (n * m + q) * h + t) by (rewrite plus_INR; ring).
      rewrite (joined_at h (G i) N ltac:(lra) (CG i) (n * m + q)%nat); [|lia|rewrite S_INR; lra].
      replace (INR (n * m + q) * h + t - INR (n * m + q) * h) with t by ring.
      unfold G, lin, u. replace (S (n * m + q)) with (n * m + S q)%nat by lia.
      rewrite (L3 n a q E ltac:(lia)), (L3 n a (S q) E ltac:(lia)).
      rewrite !Timing_Proofs.nth_map_seq by exact Hi. rewrite Nat.add_0_l. unfold h. field. fold h. lra.
  - intros i t Hi I.
    assert (AT : at_update g K = INR N * h) by (unfold at_update, N; rewrite UR, mult_INR; ring).
    rewrite AT in *. apply joined_deriv; [exact HP| |intros n Hn; split; [apply CF|apply CG]; exact Hn|exact I].
    intros n w Hn Iw. apply ramped_deriv; assumption.
Qed.

(** the closed loop *)
Theorem loop_motion : forall g m (P : world -> answer -> Prop) s0 i0 obs as_, steady g m -> consistent g ->
  length s0 = dim g -> length i0 = dim g -> as_ <> [] ->
  (forall w a, P w a -> starts_right g w a) -> Forall (proper_answer g) as_ ->
  all_answers P g as_ (world0 s0 i0 obs) ->
  exists w l p v, passes g as_ (world0 s0 i0 obs) = Some w /\ log w = Some l /\
    length l = (length as_ * m + 1)%nat /\ recorded g p v l /\
    (forall i, (i < dim g)%nat -> p i 0 = nth i s0 0 /\ v i 0 = nth i i0 0) /\
    (forall i t, (i < dim g)%nat -> 0 <= t <= at_update g (length as_) ->
       deriv_in 0 (at_update g (length as_)) (p i) t (v i t)) /\
    (if ideal_update g then follows g as_ p v else interpolates g m as_ p v) /\
    obstacles w = map (obstacle_after g (length as_)) obs /\
    (forall n a, nth_error as_ n = Some a -> exists w1, P w1 a /\
       (rel g (now w1) (start_time w1) == phase g n)%Q /\ obstacles w1 = map (obstacle_after g n) obs).
Proof.
  intros g m P s0 i0 obs as_ ST CO LS LI NE PS FA AA.
  destruct (loop_log g m P s0 i0 obs as_ ST CO LS LI PS FA AA) as (w & E & [[X _]|(l & pl & G & L & C1 & C2)] & O & W); [congruence|].
  assert (EX : exists p v, recorded g p v l /\ (if ideal_update g then follows g as_ p v else interpolates g m as_ p v) /\
    forall i t, (i < dim g)%nat -> 0 <= t <= at_update g (length as_) ->
      deriv_in 0 (at_update g (length as_)) (p i) t (v i t)).
  { destruct (ideal_update g) eqn:ID; [apply (motion_ideal g m as_ l ST FA NE L ID)|apply (motion_default g m as_ l ST NE L ID)]. }
  destruct EX as (p & v & R & M & D). exists w, l, p, v.
  split; [exact E|]. split; [apply G|]. split; [apply L|]. split; [exact R|]. split; [|split; [exact D|split; [exact M|split; [exact O|]]]].
  - intros i Hi. destruct (R 0%nat) as (_ & A & B). { destruct L as (L1 & _). rewrite L1. lia. }
    rewrite C1 in A. rewrite C2 in B. assert (Z0 : INR 0 * Q2R (ts g) = 0) by (cbn; ring). rewrite Z0 in *.
    rewrite A, B. rewrite !Timing_Proofs.nth_map_seq by exact Hi. split; reflexivity.
  - intros n a N. destruct (W n a N) as (w1 & A & B & C & D1). exists w1. split; [exact A|].
    split; [apply rel_phase; assumption|exact D1].
Qed.
