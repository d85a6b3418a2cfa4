(** Concrete segments, and the limits of the segment-wise problems. *)
From Coq Require Import Reals List Arith Lia Lra Ranalysis.
From Verif Require Import Spline_Model Spline_Spec Spline_Proofs Spline_Proofs2 Spline_Proofs3 Obst_Model
  Splop_Spec Splop_Proofs4 Multi_Model Multi_Spec Multi_Proofs.
Import ListNotations.
Local Open Scope R_scope.

Lemma quad_regular : forall a b c, regular_spline 2 (mkS obasis [a; b; c]).
Proof.
  intros a b c. split; [apply obasis_clamped|]. split; [reflexivity|]. split; [reflexivity|].
  intros x Hx i Hi [H1 _]. simpl in Hi. unfold obasis in H1. simpl in H1.
  do 6 (destruct i as [|i]; [simpl in H1; lra|]). simpl in Hi. lia.
Qed.

Lemma quad_derivative : forall a b c, derivative (mkS obasis [a; b; c]) 1 = mkS lbasis [2 * (b - a); 2 * (c - b)].
Proof.
  intros a b c. unfold derivative, lbasis. simpl. f_equal. unfold deriv_step. simpl.
  apply f_equal2; [field|]. apply f_equal2; [field|reflexivity].
Qed.

Lemma quad_start : forall a b c, call (mkS obasis [a; b; c]) 0 = a.
Proof.
  intros a b c. destruct (quad_regular a b c) as ((A & B & C & D) & E & _).
  pose proof (call_left_end (mkS obasis [a; b; c]) A E) as H. simpl in H. rewrite H; auto.
  unfold dom_left; simpl; lra.
Qed.
Lemma quad_end : forall a b c, call (mkS obasis [a; b; c]) 1 = c.
Proof.
  intros a b c. destruct (quad_regular a b c) as ((A & B & C & D) & E & _).
  pose proof (call_right_end (mkS obasis [a; b; c]) A E) as H.
  change (dom_right (sbasis (mkS obasis [a; b; c]))) with 1 in H. simpl in H. rewrite H; auto. lra.
Qed.

Lemma quad_connection : forall a b c a' b' c' T1 T2,
  connection 2 (mkS obasis [a; b; c]) (mkS obasis [a'; b'; c']) T1 T2
  = [c - a'; 2 * (c - b) * T2 - 2 * (b' - a') * T1].
Proof.
  intros. unfold connection. simpl seq. cbn [map]. rewrite !quad_derivative.
  change (derivative (mkS obasis [a; b; c]) 0) with (mkS obasis [a; b; c]).
  change (derivative (mkS obasis [a'; b'; c']) 0) with (mkS obasis [a'; b'; c']).
  rewrite !evalspline_call by reflexivity. rewrite quad_start, quad_end.
  rewrite !line_call by lra. f_equal; [ring|]. f_equal. ring.
Qed.

(** two quadratic segments of 1 and 2 seconds that meet with equal position and
    velocity *)
Definition seg_a : list bspline := [mkS obasis [0; 0; 1]].
Definition seg_b : list bspline := [mkS obasis [1; 3; 5]].

Lemma segs_regular : regular_segments 2 1 [seg_a; seg_b].
Proof.
  constructor; [split; [reflexivity|constructor; [apply quad_regular|constructor]]|].
  constructor; [split; [reflexivity|constructor; [apply quad_regular|constructor]]|constructor].
Qed.
Lemma segs_connected : Forall (fun v => v = 0) (connections [seg_a; seg_b] [1; 2]).
Proof.
  change (connections [seg_a; seg_b] [1; 2])
    with ((connection 2 (mkS obasis [0; 0; 1]) (mkS obasis [1; 3; 5]) 1 2 ++ []) ++ []).
  rewrite quad_connection. simpl. repeat constructor; lra.
Qed.
Lemma segs_duration : duration (component 0 [seg_a; seg_b] [1; 2]) = 3.
Proof. simpl. lra. Qed.

(** ** what the constraints do not give *)
(** the motion times are only constrained to be non-negative: with zero times
    the constraints on the derivatives are void *)
Theorem zero_times_refuted : exists s1 s2, regular_spline 2 s1 /\ regular_spline 2 s2 /\
  positivity [0; 0] /\ Forall (fun v => v = 0) (connections [[s1]; [s2]] [0; 0]) /\
  call (derivative s1 1) 1 = 2 /\ call (derivative s2 1) 0 = -2.
Proof.
  exists (mkS obasis [0; 0; 1]), (mkS obasis [1; 0; 0]).
  split; [apply quad_regular|]. split; [apply quad_regular|]. split.
  { repeat constructor; lra. }
  split.
  { change (Forall (fun v => v = 0) ((connection 2 (mkS obasis [0; 0; 1]) (mkS obasis [1; 0; 0]) 0 0 ++ []) ++ [])).
    rewrite quad_connection. simpl. repeat constructor; lra. }
  rewrite !quad_derivative, !line_call by lra. split; lra.
Qed.

(** only derivatives below the degree are connected *)
Theorem top_derivative_refuted : exists l, good_segs 2 l /\ meets 2 l /\
  ~ continuity_pt (travelled l 2) 1.
Proof.
  exists (component 0 [seg_a; seg_b] [1; 2]).
  assert (PT : Forall (fun T => 0 < T) [1; 2]) by (repeat constructor; lra).
  split; [apply (component_good 2 1); auto; apply segs_regular|].
  split.
  { apply (gcode_meets 2 1 2 [seg_a; seg_b] [1; 2] 0%nat segs_regular PT (Nat.le_refl _) ltac:(lia)).
    rewrite <- (connections_gcode 2 1) by apply segs_regular. apply segs_connected. }
  intros C.
  assert (D2 : forall a b c, derivative (mkS obasis [a; b; c]) 2 = mkS (mkB [0; 1] 0) [2 * (a - 2 * b + c)]).
  { intros a b c. rewrite derivative_iter, quad_derivative. unfold derivative, lbasis. simpl. f_equal. unfold deriv_step. simpl. f_equal. field. }
  assert (V : forall c x, 0 < x <= 1 -> call (mkS (mkB [0; 1] 0) [c]) x = c).
  { intros c x Hx. unfold call. simpl. unfold eval_basis. simpl. unfold ind, kn. simpl.
    unfold Reqb, Rleb. destruct (Req_EM_T 0 0); [|lra]. destruct (Rle_dec 0 x); [|lra]. destruct (Rle_dec x 1); [|lra].
    simpl. ring. }
  assert (L : travelled (component 0 [seg_a; seg_b] [1; 2]) 2 1 = 2).
  { simpl. destruct (Rle_dec 1 1); [|lra]. unfold in_seconds. rewrite D2, V by lra. field. }
  assert (Rr : forall x, 1 < x <= 3 -> travelled (component 0 [seg_a; seg_b] [1; 2]) 2 x = 0).
  { intros x Hx. simpl. destruct (Rle_dec x 1); [lra|]. unfold in_seconds. rewrite D2, V by lra. field. }
  revert C L Rr. generalize (travelled (component 0 [seg_a; seg_b] [1; 2]) 2). intros f C L Rr.
  destruct (C 1 ltac:(lra)) as (dl & Hd & K).
  specialize (K (1 + Rmin (dl / 2) 1)). simpl in K. unfold R_dist in K.
  pose proof (Rmin_l (dl / 2) 1). pose proof (Rmin_r (dl / 2) 1).
  assert (P : 0 < Rmin (dl / 2) 1) by (apply Rmin_pos; lra).
  assert (X : Rabs (f (1 + Rmin (dl / 2) 1) - f 1) < 1).
  { apply K. split.
    - split; [exact I|lra].
    - replace (1 + Rmin (dl / 2) 1 - 1) with (Rmin (dl / 2) 1) by ring. rewrite Rabs_right by lra. lra. }
  rewrite L, Rr in X by lra. rewrite Rabs_left in X by lra. lra.
Qed.

(** ** warm start *)
Theorem not_stopped_shift : forall Ts u arrived, 0 < u -> stop_criterium Ts u arrived = false ->
  let '(v, target) := step_times (total_time Ts) u in
  0 <= v <= u /\ 0 < target /\ 0 <= v / target <= 1.
Proof.
  intros Ts u arrived Hu H. unfold stop_criterium, Rltb in H.
  destruct (Rlt_dec (total_time Ts) u) as [L|L]; [discriminate|].
  assert (K := step_times_spec (total_time Ts) u Hu ltac:(lra)).
  unfold step_times, Rltb in *. destruct (Rlt_dec (total_time Ts) (2 * u)); simpl in *; repeat split; lra.
Qed.

Theorem stop_spec : forall Ts u arrived, stop_criterium Ts u arrived = true <->
  total_time Ts < u \/ Forall (fun a => a = true) arrived.
Proof.
  intros Ts u arrived. unfold stop_criterium, Rltb. destruct (Rlt_dec (total_time Ts) u) as [L|L].
  - split; auto.
  - rewrite forallb_forall, Forall_forall. split; [right; auto|]. intros [?|H]; [lra|auto].
Qed.

(** with at least two updates to go the new motion time is exact, but the guess
    starts too far along the curve: between one and two update times *)
Theorem free_shift : forall el T u, 0 < el -> 0 < u -> 2 * u <= T ->
  exists f, free_init_step el T u = Some (f, T - u) /\ u < f * T <= 2 * u.
Proof.
  intros el T u He Hu HT. unfold free_init_step, step_times, Rltb.
  destruct (Rlt_dec 0 el); [|lra]. destruct (Rlt_dec T (2 * u)); [lra|].
  exists (u / (T - u)). split; [reflexivity|].
  assert (E : u / (T - u) * T = u + u * (u / (T - u))) by (field; lra). rewrite E.
  assert (P : 0 < u / (T - u)) by (apply Rdiv_lt_0_compat; lra).
  assert (Q : u / (T - u) <= 1).
  { apply (Rmult_le_reg_r (T - u)); [lra|]. unfold Rdiv. rewrite Rmult_assoc, Rinv_l by lra. lra. }
  assert (0 < u * (u / (T - u))) by (apply Rmult_lt_0_compat; auto).
  assert (u * (u / (T - u)) <= u * 1) by (apply Rmult_le_compat_l; lra). lra.
Qed.

Theorem free_shift_refuted : exists el T u f T', 0 < el /\ 0 < u /\ 2 * u <= T /\
  free_init_step el T u = Some (f, T') /\ f <> u / T.
Proof.
  destruct (free_shift 1 10 1 ltac:(lra) ltac:(lra) ltac:(lra)) as (f & H & K).
  exists 1, 10, 1, f, (10 - 1). repeat split; auto; try lra.
Qed.

(** just before the end the motion time is not reduced at all *)
Theorem free_last_refuted : exists el T u f, 0 < el /\ 0 < u /\ u < T < 2 * u /\
  free_init_step el T u = Some (f, T) /\ f * T = T - u.
Proof.
  exists 1, 3, 2, ((3 - 2) / 3). unfold free_init_step, step_times, Rltb.
  destruct (Rlt_dec 0 1); [|lra]. destruct (Rlt_dec 3 (2 * 2)); [|lra]. repeat split; lra.
Qed.

(** the whole spline is shifted away when exactly two updates remain *)
Theorem free_degenerate_refuted : exists el T u T', 0 < el /\ 0 < u /\ 2 * u <= T /\
  free_init_step el T u = Some (1, T').
Proof.
  exists 1, 2, 1, 1. unfold free_init_step, step_times, Rltb.
  destruct (Rlt_dec 0 1); [|lra]. destruct (Rlt_dec 2 (2 * 1)); [lra|].
  repeat split; try lra. f_equal. f_equal; lra.
Qed.

(** several segments: the other times stay, the first one is reduced by what
    was travelled *)
Theorem multi_step : forall el T0 rest u f Ts', 0 < el ->
  init_step el (T0 :: rest) u = Some (f, Ts') ->
  exists v, Ts' = (T0 - v) :: rest /\ (2 * u <= total_time (T0 :: rest) -> v = u).
Proof.
  intros el T0 rest u f Ts' He H. unfold init_step, Rltb in H. destruct (Rlt_dec 0 el); [|lra].
  destruct (step_times (total_time (T0 :: rest)) u) as [v tg] eqn:E. injection H as <- <-.
  exists v. split; [reflexivity|]. intros K. unfold step_times, Rltb in E.
  destruct (Rlt_dec (total_time (T0 :: rest)) (2 * u)); [lra|]. injection E as <- <-. reflexivity.
Qed.

Theorem multi_negative_refuted : exists el Ts u f T0', 0 < el /\ Forall (fun T => 0 < T) Ts /\ 0 < u /\
  stop_criterium Ts u [false] = false /\ init_step el Ts u = Some (f, T0' :: tl Ts) /\ T0' < 0.
Proof.
  exists 1, [1; 10], 2, (2 / (0 + 1 + 10 - 2)), (1 - 2).
  assert (TT : total_time [1; 10] = 0 + 1 + 10) by reflexivity.
  split; [lra|]. split; [repeat constructor; lra|]. split; [lra|]. split.
  - unfold stop_criterium, Rltb. rewrite TT. destruct (Rlt_dec (0 + 1 + 10) 2); [lra|reflexivity].
  - split; [|lra]. unfold init_step, step_times, Rltb. rewrite TT.
    destruct (Rlt_dec 0 1); [|lra]. destruct (Rlt_dec (0 + 1 + 10) (2 * 2)); [lra|]. reflexivity.
Qed.

Theorem multi_shift_refuted : exists el T0 rest u f Ts', 0 < el /\ 0 < u /\ 2 * u <= T0 /\
  Forall (fun T => 0 < T) rest /\
  init_step el (T0 :: rest) u = Some (f, Ts') /\ f * T0 < u.
Proof.
  exists 1, 5, [5], 1, (1 / (0 + 5 + 5 - 1)), [5 - 1; 5].
  split; [lra|]. split; [lra|]. split; [lra|]. split; [repeat constructor; lra|]. split; [|lra].
  unfold init_step, step_times, Rltb. change (total_time [5; 5]) with (0 + 5 + 5).
  destruct (Rlt_dec 0 1); [|lra]. destruct (Rlt_dec (0 + 5 + 5) (2 * 1)); [lra|]. reflexivity.
Qed.

(** simulation never runs past the end of the last segment *)
Theorem simulated_time_spec : forall Ts rel st dt v, 0 <= rel <= total_time Ts -> 0 <= st ->
  simulated_time Ts rel st dt = Some v ->
  0 <= v <= st /\ rel + v <= total_time Ts /\ (rel + st <= total_time Ts -> v = st).
Proof.
  intros Ts rel st dt v Hr Hs H. unfold simulated_time, Rltb in H.
  destruct (Rlt_dec (total_time Ts) dt); [discriminate|].
  destruct (Rlt_dec (total_time Ts) st); destruct (Rlt_dec (total_time Ts - rel) _); injection H as <-; repeat split; lra.
Qed.

(** ** motion times that satisfy the constraints *)
Lemma total_time_cons : forall T Ts, total_time (T :: Ts) = T + total_time Ts.
Proof.
  intros T Ts. unfold total_time. cbn [fold_left].
  assert (K : forall l a, fold_left Rplus l a = a + fold_left Rplus l 0).
  { induction l as [|x l IH]; intros a; cbn [fold_left]; [ring|]. rewrite (IH (a + x)), (IH (0 + x)). ring. }
  rewrite (K Ts (0 + T)). ring.
Qed.
Theorem positive_times : forall Ts T, positivity Ts -> In T Ts -> 0 <= T <= total_time Ts.
Proof.
  induction Ts as [|T0 Ts IH]; intros T P I; [destruct I|].
  inversion P as [|? ? P0 P']; subst x l. rewrite total_time_cons.
  assert (N : 0 <= total_time Ts).
  { clear IH I P. induction P' as [|T1 Ts H _ IH]; [unfold total_time; simpl; lra|]. rewrite total_time_cons. lra. }
  destruct I as [<-|I]; [lra|]. specialize (IH T P' I). lra.
Qed.
