(** Polynomials: degree elevation, derivatives, integration. *)
From Coq Require Import Reals List Arith Bool ZArith Lia Lra.
From Verif Require Import Spline_Model Spline_Spec Spline_Proofs Spline_Proofs2 Spline_Proofs3 Splop_Model Splop_Spec Splop_Proofs Splop_Proofs2 Splop_Proofs3
  Vehicle_Model Vehicle_Spec Vehicle_Proofs Lift_Model Lift_Spec Lift_Proofs Lift_Proofs2 Bern_Spec Bern_Proofs Bern_Proofs2 Bern_Proofs3
  Trip_Model Trip_Spec Trip_Proofs Trip_Proofs2.
Import ListNotations.
Local Open Scope R_scope.

(** ** Degree elevation *)
Lemma bp_up : forall d j x, INR (S j) * bp (S d) (S j) x = INR (S d) * x * bp d j x.
Proof.
  induction d as [|d IH]; intros j x.
  - destruct j as [|j]; [cbn [bp INR]; ring|]. cbn [bp]. ring.
  - change (bp (S (S d)) (S j) x) with (x * bp (S d) j x + (1 - x) * bp (S d) (S j) x).
    rewrite Rmult_plus_distr_l. replace (INR (S j) * ((1 - x) * bp (S d) (S j) x)) with ((1 - x) * (INR (S j) * bp (S d) (S j) x)) by ring.
    rewrite IH. destruct j as [|i].
    + cbn [bp]. rewrite !S_INR. cbn [INR]. ring.
    + rewrite (S_INR (S i)), (S_INR (S d)). replace ((INR (S i) + 1) * (x * bp (S d) (S i) x)) with (x * (INR (S i) * bp (S d) (S i) x) + x * bp (S d) (S i) x) by ring.
      rewrite IH. change (bp (S d) (S i) x) with (x * bp d i x + (1 - x) * bp d (S i) x). ring.
Qed.
Lemma bp_keep : forall d j x, (j <= S d)%nat -> INR (S d - j) * bp (S d) j x = INR (S d) * (1 - x) * bp d j x.
Proof.
  intros d j x J. rewrite minus_INR by exact J. destruct j as [|i].
  - cbn [bp INR]. ring.
  - rewrite Rmult_minus_distr_r, bp_up. change (bp (S d) (S i) x) with (x * bp d i x + (1 - x) * bp d (S i) x). ring.
Qed.
Definition elev (d : nat) (c : list R) : list R :=
  map (fun j => (INR j * nth (j - 1) c 0 + INR (S d - j) * nth j c 0) / INR (S d)) (seq 0 (S (S d))).
Lemma fold_ext : forall (f g : nat -> R) l, (forall j, In j l -> f j = g j) -> fold_right Rplus 0 (map f l) = fold_right Rplus 0 (map g l).
Proof. intros f g l H. f_equal. apply map_ext_in, H. Qed.
Lemma fold_plus : forall (f g : nat -> R) l, fold_right Rplus 0 (map (fun j => f j + g j) l) = fold_right Rplus 0 (map f l) + fold_right Rplus 0 (map g l).
Proof. intros f g l. induction l as [|a l IH]; cbn [map fold_right]; [ring|rewrite IH; ring]. Qed.
Lemma fold_scal : forall (f : nat -> R) k l, fold_right Rplus 0 (map (fun j => k * f j) l) = k * fold_right Rplus 0 (map f l).
Proof. intros f k l. induction l as [|a l IH]; cbn [map fold_right]; [ring|rewrite IH; ring]. Qed.
Lemma call_bp : forall d c x, 0 <= x <= 1 -> length c = S d ->
  call (mkS (bern d) c) x = fold_right Rplus 0 (map (fun j => nth j c 0 * bp d j x) (seq 0 (S d))).
Proof. intros d c x Ix L. exact (dot_bern d x c Ix L). Qed.
Lemma nth_map_seq : forall (f : nat -> R) n j, (j < n)%nat -> nth j (map f (seq 0 n)) 0 = f j.
Proof.
  intros f n j H. transitivity (nth j (map f (seq 0 n)) (f 0%nat)); [apply nth_indep; rewrite map_length, seq_length; exact H|].
  rewrite map_nth, seq_nth by exact H. reflexivity.
Qed.
Lemma elev_call : forall d c x, 0 <= x <= 1 -> length c = S d -> call (mkS (bern (S d)) (elev d c)) x = call (mkS (bern d) c) x.
Proof.
  intros d c x Ix L. rewrite !call_bp; [|exact Ix|exact L|exact Ix|unfold elev; rewrite map_length, seq_length; reflexivity].
  pose proof (lt_0_INR (S d) ltac:(lia)) as P.
  rewrite (fold_ext _ (fun j => INR j * nth (j - 1) c 0 / INR (S d) * bp (S d) j x + nth j c 0 * (1 - x) * bp d j x)).
  2:{ intros j Hj. apply in_seq in Hj. unfold elev.
      rewrite (nth_map_seq (fun j => (INR j * nth (j - 1) c 0 + INR (S d - j) * nth j c 0) / INR (S d))) by lia.
      replace ((INR j * nth (j - 1) c 0 + INR (S d - j) * nth j c 0) / INR (S d) * bp (S d) j x) with
        (INR j * nth (j - 1) c 0 / INR (S d) * bp (S d) j x + nth j c 0 / INR (S d) * (INR (S d - j) * bp (S d) j x)) by (field; lra).
      rewrite bp_keep by lia. field. lra. }
  rewrite fold_plus.
  assert (E1 : fold_right Rplus 0 (map (fun j => INR j * nth (j - 1) c 0 / INR (S d) * bp (S d) j x) (seq 0 (S (S d)))) =
    fold_right Rplus 0 (map (fun j => x * (nth j c 0 * bp d j x)) (seq 0 (S d)))).
  { change (seq 0 (S (S d))) with (0%nat :: seq 1 (S d)). cbn [map fold_right]. rewrite <- seq_shift, map_map. change (INR 0) with 0.
    replace (0 * nth (0 - 1) c 0 / INR (S d) * bp (S d) 0 x) with 0 by (unfold Rdiv; ring). rewrite Rplus_0_l. apply fold_ext. intros j _.
    replace (S j - 1)%nat with j by lia.
    replace (INR (S j) * nth j c 0 / INR (S d) * bp (S d) (S j) x) with (nth j c 0 / INR (S d) * (INR (S j) * bp (S d) (S j) x)) by (field; lra).
    rewrite bp_up. field. lra. }
  assert (E2 : fold_right Rplus 0 (map (fun j => nth j c 0 * (1 - x) * bp d j x) (seq 0 (S (S d)))) =
    fold_right Rplus 0 (map (fun j => (1 - x) * (nth j c 0 * bp d j x)) (seq 0 (S d)))).
  { rewrite (in_seq_last _ (S d)), fold_app1, (bp_high d (S d) x) by lia. rewrite Rmult_0_r, Rplus_0_r. apply fold_ext. intros j _. ring. }
  rewrite E1, E2, !fold_scal. ring.
Qed.
Lemma elev_between : forall d c lo hi, length c = S d -> (forall v, In v c -> lo <= v <= hi) -> forall v, In v (elev d c) -> lo <= v <= hi.
Proof.
  intros d c lo hi L H v Hv. unfold elev in Hv. apply in_map_iff in Hv. destruct Hv as (j & <- & Hj). apply in_seq in Hj.
  pose proof (lt_0_INR (S d) ltac:(lia)) as P.
  assert (N : forall i, (i <= d)%nat -> lo <= nth i c 0 <= hi) by (intros i Hi; apply H, nth_In; lia).
  assert (Q : forall m M a b p q, 0 <= p -> 0 <= q -> p + q = INR (S d) -> (0 < p -> m <= a <= M) -> (0 < q -> m <= b <= M) -> m <= (p * a + q * b) / INR (S d) <= M).
  { intros m M a b p q Hp Hq E A B.
    assert (KA : p * m <= p * a <= p * M) by (destruct Hp as [Hp| <-]; [specialize (A Hp); nra|lra]).
    assert (KB : q * m <= q * b <= q * M) by (destruct Hq as [Hq| <-]; [specialize (B Hq); nra|lra]).
    split; [apply Rmult_le_reg_r with (INR (S d))|apply Rmult_le_reg_r with (INR (S d))]; try exact P; unfold Rdiv; rewrite Rmult_assoc, Rinv_l by lra; nra. }
  apply Q; [apply pos_INR|apply pos_INR|rewrite <- plus_INR; f_equal; lia| |].
  - intros Pj. apply N. lia.
  - intros Pj. apply N. destruct (Nat.eq_dec j (S d)) as [->|]; [|lia]. rewrite Nat.sub_diag in Pj. cbn in Pj. lra.
Qed.
Lemma elevate : forall k n c lo hi, length c = S k -> (forall v, In v c -> lo <= v <= hi) ->
  exists l, length l = S (n + k) /\ (forall x, 0 <= x <= 1 -> call (mkS (bern (n + k)) l) x = call (mkS (bern k) c) x) /\ forall v, In v l -> lo <= v <= hi.
Proof.
  intros k n c lo hi L H. induction n as [|n (l & L' & E & B)]; [exists c; cbn [Nat.add]; auto|].
  exists (elev (n + k) l). split; [unfold elev; rewrite map_length, seq_length; reflexivity|].
  split; [intros x Ix; cbn [Nat.add]; rewrite elev_call by assumption; apply E, Ix|apply elev_between; assumption].
Qed.
Lemma lower_bound : forall c : list R, exists m, forall v, In v c -> m <= v.
Proof.
  induction c as [|a c (m & H)]; [exists 0; intros v []|]. exists (Rmin a m). intros v [<-|Hv]; [apply Rmin_l|].
  eapply Rle_trans; [apply Rmin_r|apply H, Hv].
Qed.
(** a constraint whose value is a polynomial of degree k with coefficients
    within the bounds is solved *)
Theorem solved_low : forall X D c d k l, polynomial X D (cexpr c) -> below_degree 250 D (cexpr c) ->
  deg_of D (cexpr c) = Some d -> (k <= d)%nat -> length l = S k ->
  (forall x, 0 <= x <= 1 -> sval (jets X x) (cexpr c) = call (mkS (bern k) l) x) ->
  (forall v, In v l -> match clo c with None => True | Some b => b <= v end /\ v <= chi c) ->
  solved 0 X [c].
Proof.
  intros X D c d k l P B G K L V H.
  destruct (lower_bound l) as (m & Hm). set (lo := match clo c with None => m | Some b => b end).
  assert (H' : forall v, In v l -> lo <= v <= chi c).
  { intros v Hv. specialize (H v Hv). specialize (Hm v Hv). unfold lo. destruct (clo c); tauto. }
  destruct (elevate k (d - k) l lo (chi c) L H') as (l' & L' & E & B'). replace (d - k + k)%nat with d in * by lia.
  apply (solved_poly X D c d l'); try assumption.
  - intros x Ix. rewrite E by exact Ix. apply V, Ix.
  - intros v Hv. specialize (B' v Hv). unfold lo in B'. destruct (clo c); tauto.
Qed.

(** ** Derivatives *)
Lemma regular_bern : forall n d l, (n <= d)%nat -> length l = S d -> regular n (mkS (bern d) l).
Proof.
  intros n d l N L. split; [|split].
  - split; [apply bern_clamped|]. transitivity (S d); [exact L|symmetry; apply bern_blen].
  - exact N.
  - intros t It i Hi [E _]. cbn [sbasis] in Hi, E.
    assert (Li : (i < 2 * d + 2)%nat) by (rewrite bern_knots in Hi; lia).
    pose proof (bern_kn d i Li) as Q. unfold kn in Q. rewrite E in Q. destruct (i <=? d)%nat; lra.
Qed.
Fixpoint padd (a b : list R) : list R :=
  match a, b with [], _ => b | _, [] => a | x :: a', y :: b' => (x + y) :: padd a' b' end.
Fixpoint pder (l : list R) : list R := match l with [] => [] | _ :: r => padd r (0 :: pder r) end.
Lemma peval_padd : forall a b x, peval (padd a b) x = peval a x + peval b x.
Proof. induction a as [|u a IH]; intros [|v b] x; cbn [padd peval]; try ring. rewrite IH. ring. Qed.
Lemma peval_lim : forall l x, derivable_pt_lim (peval l) x (peval (pder l) x).
Proof.
  induction l as [|a l IH]; intros x; cbn [peval pder]; [apply derivable_pt_lim_const|].
  rewrite peval_padd. cbn [peval].
  replace (peval l x + (0 + x * peval (pder l) x)) with (0 + (1 * peval l x + x * peval (pder l) x)) by ring.
  apply (derivable_pt_lim_plus (fun _ => a) (fun w => w * peval l w)); [apply derivable_pt_lim_const|].
  apply (derivable_pt_lim_mult (fun w => w) (peval l)); [apply derivable_pt_lim_id|apply IH].
Qed.
Fixpoint pders (o : nat) (l : list R) : list R := match o with O => l | S k => pder (pders k l) end.
(** the derivatives of a spline that is the polynomial l *)
Theorem jets_poly : forall n s l, regular n s -> (forall x, 0 <= x <= 1 -> call s x = peval l x) ->
  forall o x, (o <= n)%nat -> 0 <= x <= 1 -> call (derivative s o) x = peval (pders o l) x.
Proof.
  intros n s l R E o. induction o as [|o IH]; intros x O Ix; [apply E, Ix|]. cbn [pders].
  pose proof (regular_smooth n (fun _ => s) 0 o R ltac:(lia) x Ix) as D. cbv beta in D.
  refine (deriv_unique 0 1 (fun u => jets (fun _ => s) u 0%nat o) x _ _ ltac:(lra) Ix D _).
  apply (deriv_of_lim 0 1 _ (peval (pders o l))); [exact Ix| |apply peval_lim].
  intros u Iu. symmetry. apply IH; [lia|exact Iu].
Qed.

(** ** Integration *)
Lemma bern_hd : forall d, hd 0 (knots (bern d)) = 0.
Proof. intros d. cbn [bern knots]. rewrite Nat.add_1_r. reflexivity. Qed.
Lemma repeat_snoc : forall (x : R) n, repeat x n ++ [x] = repeat x (S n).
Proof. intros x n. induction n as [|n IH]; [reflexivity|]. cbn [repeat app]. rewrite IH. reflexivity. Qed.
Lemma bern_last : forall d, last (knots (bern d)) 0 = 1.
Proof. intros d. cbn [bern knots]. rewrite Nat.add_1_r. rewrite <- (repeat_snoc 1), app_assoc. apply last_last. Qed.
Lemma integral_bern : forall s d, sbasis s = bern d -> sbasis (running_integral s) = bern (S d).
Proof.
  intros s d E. unfold running_integral. cbn [sbasis]. rewrite E, bern_hd, bern_last. unfold bern. cbn [knots degree]. f_equal; [|lia].
  rewrite !Nat.add_1_r. cbn [app]. change (0 :: (repeat 0 (S d) ++ repeat 1 (S d)) ++ [1]) with ((repeat 0 (S (S d)) ++ repeat 1 (S d)) ++ [1]).
  rewrite <- app_assoc, repeat_snoc. reflexivity.
Qed.
Lemma integrate_bern : forall s d x0 t T, sbasis s = bern d -> sbasis (integrate_spline s x0 t T) = bern (S d).
Proof. intros s d x0 t T E. unfold integrate_spline, add_num, mul_num. cbn [sbasis]. apply integral_bern, E. Qed.
Lemma integrate_length : forall s d x0 t T, on_unit s -> sbasis s = bern d -> length (coeffs (integrate_spline s x0 t T)) = S (S d).
Proof.
  intros s d x0 t T U E. pose proof (integrate_spline_unit s x0 t T U) as [_ Z]. unfold sized in Z. rewrite Z, (integrate_bern s d) by exact E. apply bern_blen.
Qed.
Lemma same_deriv : forall T t0 (f g d : R -> R), 0 <= t0 <= T -> f t0 = g t0 ->
  (forall t, 0 <= t <= T -> deriv_in 0 T f t (d t)) -> (forall t, 0 <= t <= T -> deriv_in 0 T g t (d t)) ->
  forall t, 0 <= t <= T -> f t = g t.
Proof.
  intros T t0 f g d I0 E0 Df Dg t It.
  assert (Z : forall u, 0 <= u <= T -> deriv_in 0 T (fun u => f u - g u) u 0).
  { intros u Iu. eapply deriv_eq; [apply deriv_minus; [exact Iu|apply Df, Iu|apply Dg, Iu]|ring]. }
  pose proof (deriv_zero_const 0 T _ Z t t0 It I0) as C. cbv beta in C. lra.
Qed.
(** the integral of a polynomial: l' has derivative l; start at t0 = 0 *)
Theorem integrate_poly : forall s d x0 T l l', 0 < T -> regular 0 s -> sbasis s = bern d -> (forall x, 0 <= x <= 1 -> call s x = peval l x) ->
  (forall x, peval (pder l') x = peval l x) -> peval l' 0 = 0 ->
  forall x, 0 <= x <= 1 -> call (integrate_spline s x0 0 T) x = x0 + T * peval l' x.
Proof.
  intros s d x0 T l l' P R EB E D Z x Ix.
  assert (TD : tidy (sbasis s)) by (intros t It; destruct R as (_ & _ & K); specialize (K t It); rewrite Nat.sub_0_r in K; exact K).
  assert (IT : 0 <= T * x <= T) by nra. assert (TX : T * x / T = x) by (field; lra).
  pose proof (same_deriv T 0 (fun u => call (integrate_spline s x0 0 T) (u / T)) (fun u => x0 + T * peval l' (u / T)) (fun u => call s (u / T))) as K.
  rewrite <- TX at 1. rewrite <- TX at 2. apply K; [lra| | | |exact IT].
  - cbv beta. rewrite integrate_spline_start by (try lra; apply R). unfold Rdiv. rewrite Rmult_0_l, Z. ring.
  - intros t It. apply integrate_spline_deriv; try assumption; first [apply R|lra].
  - intros t It. apply (deriv_of_lim 0 T _ (fun u => x0 + T * peval l' (u / T))); [exact It|reflexivity|].
    assert (Q : 0 <= t / T <= 1) by (split; [apply Rmult_le_pos; [lra|left; apply Rinv_0_lt_compat, P]|apply Rmult_le_reg_r with T; [exact P|unfold Rdiv; rewrite Rmult_assoc, Rinv_l; lra]]).
    rewrite (E _ Q), <- D.
    replace (peval (pder l') (t / T)) with (0 + T * (peval (pder l') (t / T) * / T)) by (field; lra).
    apply (derivable_pt_lim_plus (fun _ => x0)); [apply derivable_pt_lim_const|].
    apply (derivable_pt_lim_scal (fun u => peval l' (u / T))).
    apply (derivable_pt_lim_comp (fun u => u / T) (peval l')); [|apply peval_lim].
    unfold Rdiv. pose proof (derivable_pt_lim_mult (fun u => u) (fun _ => / T) t 1 0 (derivable_pt_lim_id t) (derivable_pt_lim_const (/ T) t)) as C.
    assert (EC : / T = 1 * / T + t * 0) by ring. exact (eq_ind_r (fun z => derivable_pt_lim (fun u => u * / T) t z) C EC).
Qed.
