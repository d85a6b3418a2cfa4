(** The motion behind the log with free end time. *)
From Coq Require Import Reals QArith Qreals ZArith Lra Lia List Arith Bool.
From Verif Require Import Spline_Model Spline_Spec Spline_Proofs3 Splop_Spec Vehicle_Model Vehicle_Spec Vehicle_Proofs Quad_Proofs
  Wheel_Proofs Lift_Model Lift_Spec Lift_Proofs2 Lift_Proofs4
  Loop_Model Loop_Spec Loop_Proofs Loop_Proofs2 Loop_Proofs3 Loop_Proofs4 Loop_Proofs5 Loop_Proofs6
  Free_Model Free_Spec Free_Proofs Free_Proofs2.
From Coq Require Lqa.
From Verif Require Timing_Model Timing_Proofs Timing_Proofs2.
Import ListNotations.
Local Open Scope R_scope.

Lemma joined_last : forall U W F G K, 0 < U -> 0 <= W ->
  (forall n t, (n < K)%nat -> 0 <= t <= U -> deriv_in 0 U (F n) t (G n t)) ->
  (forall t, 0 <= t <= W -> deriv_in 0 W (F K) t (G K t)) ->
  (forall n, (n < K)%nat -> F (S n) 0 = F n U /\ G (S n) 0 = G n U) ->
  forall t, 0 <= t <= INR K * U + W -> deriv_in 0 (INR K * U + W) (joined U F (S K)) t (joined U G (S K) t).
Proof.
  intros U W F G K PU PW D DW C t I. pose proof (pos_INR K) as PK.
  assert (KU : 0 <= INR K * U) by (apply Rmult_le_pos; lra).
  assert (LO : forall u, u <= INR K * U -> forall H, joined U H (S K) u = joined U H K u).
  { intros u L H. cbn [joined]. destruct (Rle_dec u (INR K * U)); [reflexivity|lra]. }
  assert (HI : forall H, (forall n, (n < K)%nat -> H (S n) 0 = H n U) -> forall u, INR K * U <= u -> joined U H (S K) u = H K (u - INR K * U)).
  { intros H CH u L. cbn [joined]. destruct (Rle_dec u (INR K * U)) as [X|X]; [|reflexivity].
    assert (u = INR K * U) by lra. subst u. replace (INR K * U - INR K * U) with 0 by ring.
    destruct K as [|k]; [cbn [joined]; f_equal; cbn; ring|].
    rewrite (joined_at U H (S k) ltac:(lra)) with (n := k); [|intros; apply CH; lia|lia|rewrite S_INR; nra].
    rewrite CH by lia. f_equal. rewrite S_INR. ring. }
  assert (CF : forall n, (n < K)%nat -> F (S n) 0 = F n U) by (intros; apply C; assumption).
  assert (CG : forall n, (n < K)%nat -> G (S n) 0 = G n U) by (intros; apply C; assumption).
  apply (deriv_glue 0 (INR K * U) (INR K * U + W)); [lra| | |exact I].
  - intros u Iu. rewrite (LO u (proj2 Iu) G).
    apply (deriv_ext 0 (INR K * U) (joined U F K)); [exact Iu|intros; symmetry; apply LO; lra|].
    apply joined_deriv; [exact PU|exact D|intros; apply C; lia|exact Iu].
  - intros u Iu. rewrite (HI G CG u (proj1 Iu)).
    apply (deriv_ext (INR K * U) (INR K * U + W) (fun w => F K (w - INR K * U)));
      [exact Iu|intros w Iw; symmetry; apply HI; [exact CF|apply Iw]|].
    pose proof (deriv_shift 0 W (INR K * U) (F K) u (G K (u - INR K * U)) (DW (u - INR K * U) ltac:(lra))) as X.
    replace (0 + INR K * U) with (INR K * U) in X by ring. replace (W + INR K * U) with (INR K * U + W) in X by ring. exact X.
Qed.

Lemma fcourse_deriv : forall g f o i W t, proper g f -> 0 < Q2R (motion f) -> (i < dim g)%nat -> (o <= 1)%nat ->
  W <= Q2R (motion f) -> 0 <= t <= W -> deriv_in 0 W (fcourse f o i) t (fcourse f (S o) i t).
Proof.
  intros g f o i W t [PA _] HT Hi Ho LW I. destruct (PA i Hi) as (U & DG & M). set (T := Q2R (motion f)) in *.
  assert (SM : smooth 0 1 (fun tau => jets (path (body f)) tau i) o).
  { apply jets_smooth; [exact U|lia|]. intros u Hu. apply (mult_le_weaken _ _ 1); [lia|apply U|apply M, Hu]. }
  pose proof (phys_smooth T _ o HT SM t ltac:(lra)) as D.
  apply (deriv_sub _ _ 0 W) in D; [|lra|lra]. exact D.
Qed.

Lemma count_time : forall g m f, paced g m -> timely g f ->
  0 < INR (count g m f) * Q2R (ts g) /\ INR (count g m f) * Q2R (ts g) <= Q2R (upd g) /\ INR (count g m f) * Q2R (ts g) <= Q2R (motion f).
Proof.
  intros g m f P TI. destruct (count_ok g m f P TI) as ((A & B) & C & _). pose proof (Q2R_pos _ (proj1 P)) as HP.
  apply Qle_Rle in C. rewrite Q2R_nat in C. rewrite (paced_real g m P). apply le_INR in A, B. change (INR 1) with 1 in A.
  split; [apply Rmult_lt_0_compat; lra|]. split; [apply Rmult_le_compat_r; lra|exact C].
Qed.
Lemma count_sample : forall g m f q, paced g m -> timely g f -> (q <= count g m f)%nat ->
  0 <= INR q * Q2R (ts g) <= INR (count g m f) * Q2R (ts g).
Proof.
  intros g m f q P TI Q. pose proof (Q2R_pos _ (proj1 P)) as HP. pose proof (pos_INR q). apply le_INR in Q.
  split; [apply Rmult_le_pos; lra|apply Rmult_le_compat_r; lra].
Qed.

Lemma legs_nth : forall g m fs f n f', paced g m -> legs g fs f -> nth_error (fs ++ [f]) n = Some f' ->
  (n <= length fs)%nat /\ timely g f' /\ proper g f' /\ ((n < length fs)%nat -> long g f') /\ (n = length fs -> f' = f).
Proof.
  intros g m fs f n f' P (A & B & C & D) N. apply error_snoc in N. rewrite Forall_forall in A, B. destruct N as [[N1 N2]|[-> <-]].
  - apply nth_error_In in N2. split; [lia|]. split; [apply (long_timely g m); auto|]. split; [auto|]. split; [auto|lia].
  - split; [lia|]. split; [exact C|]. split; [exact D|]. split; [lia|auto].
Qed.
Lemma legs_some : forall (fs : list fanswer) f n, (n <= length fs)%nat -> exists f', nth_error (fs ++ [f]) n = Some f'.
Proof. intros. apply nth_some. rewrite app_length. cbn. lia. Qed.

(** the time of the last sample of update n *)
Lemma leg_end : forall g m fs f n f', paced g m -> legs g fs f -> nth_error (fs ++ [f]) n = Some f' ->
  at_update g n + INR (count g m f') * Q2R (ts g) <= end_time g m fs f.
Proof.
  intros g m fs f n f' P L N. destruct (legs_nth g m fs f n f' P L N) as (A & B & C & D & E). unfold end_time.
  destruct (Nat.eq_dec n (length fs)) as [X|X]; [rewrite X, (E X); lra|].
  rewrite (count_long g m f' (D ltac:(lia))), <- (paced_real g m P).
  pose proof (Q2R_pos _ (paced_upd g m P)) as UP. unfold at_update.
  assert (INR (S n) <= INR (length fs)) by (apply le_INR; lia). rewrite S_INR in H.
  pose proof (Rmult_le_compat_r (Q2R (upd g)) _ _ ltac:(lra) H).
  destruct (count_time g m f P (proj1 (proj2 (proj2 L)))) as (Y & _). lra.
Qed.

Lemma sample_leg : forall g m fs f j, paced g m -> timely g f -> (j <= length fs * m + count g m f)%nat ->
  exists n f' q, nth_error (fs ++ [f]) n = Some f' /\ (q <= count g m f')%nat /\ j = (n * m + q)%nat \/
  exists n f' q, nth_error (fs ++ [f]) n = Some f' /\ (n < length fs)%nat /\ (q <= m)%nat /\ j = (n * m + q)%nat.
Proof.
  intros g m fs f j P TI J. destruct P as (_ & M1 & _). destruct (le_lt_dec (length fs * m) j) as [L|L].
  - exists (length fs), f, (j - length fs * m)%nat. left. split; [|split; lia].
    rewrite nth_error_app2 by lia. rewrite Nat.sub_diag. reflexivity.
  - exists 0%nat, f, 0%nat. right.
    assert (Hn : (j / m < length fs)%nat) by (apply Nat.div_lt_upper_bound; [lia|rewrite Nat.mul_comm; exact L]).
    destruct (legs_some fs f (j / m)%nat ltac:(lia)) as (f' & N). exists (j / m)%nat, f', (j mod m)%nat. split; [exact N|].
    split; [exact Hn|]. pose proof (Nat.mod_upper_bound j m ltac:(lia)). split; [lia|]. rewrite (Nat.div_mod j m) at 1 by lia. lia.
Qed.

Lemma free_ideal : forall g m fs f l, paced g m -> legs g fs f -> flogs g m (fs ++ [f]) (length fs * m + count g m f) l ->
  ideal_update g = true ->
  exists p v, recorded g p v l /\ f_follows g m (fs ++ [f]) p v /\
    forall i t, (i < dim g)%nat -> 0 <= t <= end_time g m fs f -> deriv_in 0 (end_time g m fs f) (p i) t (v i t).
Proof.
  intros g m fs f l ST LG (L1 & L0 & L2 & L3 & L4 & L5) ID. rewrite ID in L5. pose proof LG as (_ & _ & TI & PF).
  set (K := length fs) in *. pose proof (Q2R_pos _ (paced_upd g m ST)) as UP. set (U := Q2R (upd g)) in *.
  pose proof (paced_real g m ST) as UR. fold U in UR.
  set (C o i n t := fcourse (nth n (fs ++ [f]) f) o i t).
  assert (NTH : forall n f', nth_error (fs ++ [f]) n = Some f' -> nth n (fs ++ [f]) f = f') by (intros n f' E; apply (nth_error_nth _ _ _ E)).
  assert (ST0 : forall n f' q i, nth_error (fs ++ [f]) n = Some f' -> (q <= count g m f')%nat -> (i < dim g)%nat ->
     nth i (c_state (nth (n * m + q) l no_column)) 0 = C 0%nat i n (INR q * Q2R (ts g)) /\
     nth i (c_input (nth (n * m + q) l no_column)) 0 = C 1%nat i n (INR q * Q2R (ts g))).
  { intros n f' q i N Hq Hi. rewrite (L5 n _ q N Hq), (L3 n _ q N Hq). unfold C. rewrite (NTH n f' N).
    rewrite !Timing_Proofs.nth_map_seq by exact Hi. split; reflexivity. }
  assert (Z0 : INR 0 * Q2R (ts g) = 0) by (cbn; ring).
  assert (CON : forall o i n, (o <= 1)%nat -> (i < dim g)%nat -> (n < K)%nat -> C o i (S n) 0 = C o i n U).
  { intros o i n Ho Hi Hn. destruct (legs_some fs f (S n) ltac:(fold K; lia)) as (f1 & N1). destruct (legs_some fs f n ltac:(fold K; lia)) as (f0 & N0).
    destruct (legs_nth g m fs f n f0 ST LG N0) as (_ & _ & _ & LO & _). specialize (LO Hn). pose proof (count_long g m f0 LO) as CL.
    destruct (ST0 (S n) f1 0%nat i N1 ltac:(lia) Hi) as [A B].
    destruct (ST0 n f0 m i N0 ltac:(lia) Hi) as [A' B'].
    replace (S n * m + 0)%nat with (n * m + m)%nat in A, B by lia. rewrite Z0 in A, B. rewrite <- UR in A', B'.
    destruct o as [|[|o]]; [congruence|congruence|lia]. }
  assert (AT : forall o i n t, (o <= 1)%nat -> (i < dim g)%nat -> (n <= K)%nat -> 0 <= t <= U ->
     joined U (C o i) (S K) (INR n * U + t) = C o i n t).
  { intros o i n t Ho Hi Hn It. rewrite (joined_at U _ (S K) ltac:(lra)) with (n := n); [|intros; apply CON; auto; lia|lia|rewrite S_INR; lra].
    f_equal. ring. }
  exists (fun i => joined U (C 0%nat i) (S K)), (fun i => joined U (C 1%nat i) (S K)). split; [|split].
  - apply recorded_by; [exact L2|]. intros j i J Hi. rewrite L1 in J.
    assert (exists n f' q, nth_error (fs ++ [f]) n = Some f' /\ (q <= count g m f')%nat /\ j = (n * m + q)%nat) as (n & f' & q & N & Hq & ->).
    { destruct (sample_leg g m fs f j ST TI ltac:(fold K; lia)) as (a & b & c & [X|(n & f' & q & N & Hn & Hq & E)]); [eauto|].
      exists n, f', q. split; [exact N|]. split; [|exact E].
      destruct (legs_nth g m fs f n f' ST LG N) as (_ & _ & _ & LO & _). rewrite (count_long g m f' (LO Hn)). exact Hq. }
    destruct (ST0 n f' q i N Hq Hi) as [A B]. rewrite A, B.
    destruct (legs_nth g m fs f n f' ST LG N) as (Hn & TI' & _). fold K in Hn.
    destruct (count_time g m f' ST TI') as (_ & CT & _). fold U in CT. pose proof (count_sample g m f' q ST TI' Hq) as QS.
    assert (TQ : INR (n * m + q) * Q2R (ts g) = INR n * U + INR q * Q2R (ts g)).
    { rewrite plus_INR, mult_INR, UR. ring. }
    rewrite TQ. rewrite !AT by (auto; lra). split; reflexivity.
  - intros n f' i t N Hi I. destruct (legs_nth g m fs f n f' ST LG N) as (Hn & TI' & _). fold K in Hn.
    destruct (count_time g m f' ST TI') as (_ & CT & _). fold U in CT.
    unfold at_update. fold U. rewrite !AT by (auto; lra). unfold C. rewrite (NTH n f' N). split; reflexivity.
  - intros i t Hi I. unfold end_time, at_update in *. fold U K in I |- *.
    destruct (count_time g m f ST TI) as (W0 & W1 & W2).
    apply joined_last; [exact UP|lra| | |intros n Hn; split; apply CON; auto; lia|exact I].
    + intros n u Hn Iu. destruct (legs_some fs f n ltac:(fold K; lia)) as (f0 & N0).
      destruct (legs_nth g m fs f n f0 ST LG N0) as (_ & T0 & P0 & LO & _). specialize (LO Hn). unfold C. rewrite (NTH n f0 N0).
      apply (fcourse_deriv g); auto; [apply (timely_pos g m); assumption|].
      unfold long in LO. apply Qle_Rle in LO. exact LO.
    + intros u Iu. unfold C. rewrite (NTH K f); [|unfold K; rewrite nth_error_app2 by lia; rewrite Nat.sub_diag; reflexivity].
      apply (fcourse_deriv g); auto. apply (timely_pos g m); assumption.
Qed.

Lemma free_default : forall g m fs f l, paced g m -> legs g fs f -> flogs g m (fs ++ [f]) (length fs * m + count g m f) l ->
  ideal_update g = false ->
  exists p v, recorded g p v l /\ f_interpolates g m (fs ++ [f]) p v /\
    forall i t, (i < dim g)%nat -> 0 <= t <= end_time g m fs f -> deriv_in 0 (end_time g m fs f) (p i) t (v i t).
Proof.
  intros g m fs f l ST LG (L1 & L0 & L2 & L3 & L4 & L5) ID. rewrite ID in L5. pose proof LG as (_ & _ & TI & PF).
  assert (M1 : (1 <= m)%nat) by apply ST.
  pose proof (Q2R_pos _ (proj1 ST)) as HP. set (h := Q2R (ts g)) in *.
  pose proof (paced_real g m ST) as UR. fold h in UR.
  destruct (count_ok g m f ST TI) as ((Q1 & Q2) & _).
  set (N := (length fs * m + count g m f)%nat) in *. assert (N1 : (1 <= N)%nat) by (unfold N; lia).
  set (X i j := nth i (c_state (nth j l no_column)) 0). set (u i j := nth i (c_input (nth j l no_column)) 0).
  assert (XS : forall i j, (j < N)%nat -> X i (S j) = X i j + h / 2 * (u i j + u i (S j))).
  { intros i j J. unfold X, u. rewrite L5 by lia.
    destruct (L2 j ltac:(lia)) as (_ & A & B). destruct (L2 (S j) ltac:(lia)) as (_ & A' & B').
    apply (trapezoid_nth h _ _ _ (dim g)); assumption. }
  set (F i j := ramped h (X i j) (u i j) (u i (S j))). set (G i j := lin h (u i j) (u i (S j))).
  assert (F0 : forall i j, F i j 0 = X i j) by (intros; unfold F, ramped; field; lra).
  assert (G0 : forall i j, G i j 0 = u i j) by (intros; unfold G, lin; field; lra).
  assert (Fh : forall i j, (j < N)%nat -> F i j h = X i (S j)) by (intros; rewrite XS by assumption; unfold F, ramped; field; lra).
  assert (Gh : forall i j, G i j h = u i (S j)) by (intros; unfold G, lin; field; lra).
  assert (CF : forall i n, (S n < N)%nat -> F i (S n) 0 = F i n h) by (intros; rewrite F0, Fh by lia; reflexivity).
  assert (CG : forall i n, (S n < N)%nat -> G i (S n) 0 = G i n h) by (intros; rewrite G0, Gh; reflexivity).
  assert (PAT : forall i j, (j <= N)%nat -> joined h (F i) N (INR j * h) = X i j /\ joined h (G i) N (INR j * h) = u i j).
  { intros i j J. rewrite !joined_ends by (auto; apply CF || apply CG).
    destruct (Nat.eqb_spec j N) as [->|E]; [|rewrite F0, G0; split; reflexivity].
    rewrite Fh, Gh by lia. replace (S (N - 1)) with N by lia. split; reflexivity. }
  exists (fun i => joined h (F i) N), (fun i => joined h (G i) N). split; [|split].
  - apply recorded_by; [exact L2|]. intros j i J Hi. apply PAT. lia.
  - intros n a i E Hi.
    assert (AT : at_update g n = INR (n * m) * h) by (unfold at_update; rewrite UR, mult_INR; ring).
    pose proof (L0 n a E) as NM.
    split.
    + rewrite AT. rewrite (proj1 (PAT i (n * m)%nat ltac:(lia))). unfold X. rewrite (L4 n a E).
      apply (Timing_Proofs.nth_map_seq (fun i => fcourse a 0 i 0)). exact Hi.
    + fold h. intros q t Q I. rewrite AT.
      replace (INR (n * m) * h + INR q * h + t) with (INR (n * m + q) * h + t) by (rewrite plus_INR; ring).
      rewrite (joined_at h (G i) N ltac:(lra) (CG i) (n * m + q)%nat); [|lia|rewrite S_INR; lra].
      replace (INR (n * m + q) * h + t - INR (n * m + q) * h) with t by ring.
      unfold G, lin, u. replace (S (n * m + q)) with (n * m + S q)%nat by lia.
      rewrite (L3 n a q E ltac:(lia)), (L3 n a (S q) E ltac:(lia)).
      rewrite !Timing_Proofs.nth_map_seq by exact Hi. rewrite Nat.add_0_l. unfold h. field. fold h. lra.
  - intros i t Hi I.
    assert (AT : end_time g m fs f = INR N * h).
    { unfold end_time, at_update, N. rewrite UR, plus_INR, mult_INR. unfold h. ring. }
    rewrite AT in *. apply joined_deriv; [exact HP| |intros n Hn; split; [apply CF|apply CG]; exact Hn|exact I].
    intros n w Hn Iw. apply ramped_deriv; assumption.
Qed.

Theorem free_motion : forall g m (P : world -> fanswer -> Prop) s0 i0 obs fs f, paced g m -> consistent g ->
  length s0 = dim g -> length i0 = dim g -> (forall w f, timely g f -> proper g f -> P w f -> f_starts g w f) ->
  legs g fs f -> all_found P g (fs ++ [f]) (world0 s0 i0 obs) ->
  (exists p v, f_moves g m fs f s0 i0 obs p v) /\
  (exists w, after g fs f (world0 s0 i0 obs) = Some w /\
     (now w == inject_Z (Z.of_nat (length fs)) * upd g)%Q /\ (start_time w == 0)%Q) /\
  (forall n f', nth_error (fs ++ [f]) n = Some f' -> exists w1, P w1 f' /\ obstacles w1 = map (obstacle_after g n) obs).
Proof.
  intros g m P s0 i0 obs fs f ST CO LS LI PS LG AA. pose proof LG as (A1 & A2 & A3 & A4).
  destruct (after_log g m P s0 i0 obs fs f ST CO LS LI PS A1 A2 A3 A4 AA) as (w & l & E & EL & L & C1 & C2 & NW & SW & W).
  split; [|split; [exists w; repeat split; assumption|exact W]].
  assert (EX : exists p v, recorded g p v l /\ (if ideal_update g then f_follows g m (fs ++ [f]) p v else f_interpolates g m (fs ++ [f]) p v) /\
    forall i t, (i < dim g)%nat -> 0 <= t <= end_time g m fs f -> deriv_in 0 (end_time g m fs f) (p i) t (v i t)).
  { destruct (ideal_update g) eqn:ID; [apply (free_ideal g m fs f l ST LG L ID)|apply (free_default g m fs f l ST LG L ID)]. }
  destruct EX as (p & v & R & M & D). exists p, v, w, l.
  split; [exact E|]. split; [exact EL|]. split; [apply L|]. split; [exact R|]. split; [|split; [exact D|exact M]].
  intros i Hi. destruct (R 0%nat) as (_ & A & B). { destruct L as (L1 & _). rewrite L1. lia. }
  rewrite C1 in A. rewrite C2 in B. assert (Z0 : INR 0 * Q2R (ts g) = 0) by (cbn; ring). rewrite Z0 in *.
  rewrite A, B. rewrite !Timing_Proofs.nth_map_seq by exact Hi. split; reflexivity.
Qed.
