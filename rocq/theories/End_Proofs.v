(** One-sided derivatives of splines at the ends of a clamped domain: a spline
    is differentiable within its whole domain. *)
From Coq Require Import Reals List Arith Lia Lra Ranalysis.
From Verif Require Import Spline_Model Spline_Spec Blossom Spline_Proofs Spline_Proofs2 Spline_Proofs3
  Vehicle_Spec.
Import ListNotations.
Local Open Scope R_scope.

Lemma piece_derivable : forall s J z, nondecreasing (knots (sbasis s)) -> sized s ->
  (1 <= degree (sbasis s))%nat -> forall x, active (sbasis s) x J ->
  derivable_pt_lim (diag (degree (sbasis s)) (shn (J - degree (sbasis s)) (kn (sbasis s)))
      (shn (J - degree (sbasis s)) (cf s))) z
   (diag (degree (sbasis s) - 1)
     (shn ((J - 1) - (degree (sbasis s) - 1)) (kn (sbasis (derivative s 1))))
     (shn ((J - 1) - (degree (sbasis s) - 1)) (cf (derivative s 1))) z).
Proof.
  intros s J z Hs SZ HD x HA. pose proof (active_pos _ _ _ Hs HA) as AP.
  rewrite <- (deriv1_piece s x J) by auto.
  set (D := degree (sbasis s)) in *. destruct HA as (H1 & H2 & _).
  replace D with (S (D - 1)) at 1 4 by lia.
  apply diag_derivable. replace (S (D - 1)) with D by lia.
  apply good_of_actpos. replace (J - D + D)%nat with J by lia. exact AP.
Qed.

Definition lo_end (b : bbasis) : R := nth 0 (knots b) 0.
Definition hi_end (b : bbasis) : R := nth (length (knots b) - 1) (knots b) 0.

Lemma deriv1_clamped : forall s, (1 <= degree (sbasis s))%nat -> well_formed (sbasis s) ->
  clamped (sbasis s) -> clamped (sbasis (derivative s 1)).
Proof.
  intros s HD [Hs Hl] (A & B & C & E). unfold clamped.
  rewrite !deriv1_degree. rewrite deriv1_knots, length_trim.
  set (n := length (knots (sbasis s))) in *. set (D := degree (sbasis s)) in *.
  assert (M : forall i j, (i <= j)%nat -> (j < n)%nat -> nth i (knots (sbasis s)) 0 <= nth j (knots (sbasis s)) 0)
    by (intros; apply Hs; auto).
  rewrite !nth_trim by lia.
  replace (S (D - 1)) with D by lia. replace (S (D - 1 + 1)) with (D + 1)%nat by lia.
  replace (S (n - 2 - (D - 1) - 1)) with (n - D - 1)%nat by lia.
  replace (S (n - 2 - 1)) with (n - 2)%nat by lia.
  replace (S (n - 2 - (D - 1) - 2)) with (n - D - 2)%nat by lia.
  pose proof (M 0%nat 1%nat ltac:(lia) ltac:(lia)). pose proof (M 1%nat D ltac:(lia) ltac:(lia)).
  pose proof (M (n - D - 1)%nat (n - 2)%nat ltac:(lia) ltac:(lia)).
  pose proof (M (n - 2)%nat (n - 1)%nat ltac:(lia) ltac:(lia)).
  repeat split; lra.
Qed.

Lemma deriv_clamped : forall o s, (o <= degree (sbasis s))%nat -> well_formed (sbasis s) -> sized s ->
  clamped (sbasis s) -> clamped (sbasis (derivative s o)).
Proof.
  induction o as [|o IH]; intros s Ho WF SZ C; [exact C|].
  rewrite derivative_iter. destruct (deriv_inv o s ltac:(lia) WF SZ) as (A & B & E & _).
  apply deriv1_clamped; [lia|exact A|]. apply IH; auto; lia.
Qed.

Lemma clamped_ends : forall b, well_formed b -> clamped b ->
  lo_end b = dom_left b /\ hi_end b = dom_right b /\ dom_left b < dom_right b.
Proof.
  intros b [Hs Hl] (A & B & C & E). unfold lo_end, hi_end, dom_left, dom_right. repeat split; auto.
  pose proof (Hs (degree b + 1)%nat (length (knots b) - degree b - 1)%nat ltac:(lia) ltac:(lia)). lra.
Qed.

(** polynomial that coincides with the spline right of the left end *)
Lemma end_left : forall s, well_formed (sbasis s) -> sized s -> clamped (sbasis s) ->
  (1 <= degree (sbasis s))%nat ->
  exists g e, 0 < e /\ (forall x, lo_end (sbasis s) <= x < lo_end (sbasis s) + e -> call s x = g x) /\
    derivable_pt_lim g (lo_end (sbasis s)) (call (derivative s 1) (lo_end (sbasis s))).
Proof.
  intros s WF SZ C HD. assert (WF' := deriv1_wf s HD WF). assert (SZ' := deriv1_sized s HD SZ).
  destruct (clamped_ends _ WF C) as (EL & _). destruct C as (A & B & C & E).
  pose proof WF as [Hs Hl].
  set (b := sbasis s) in *. set (D := degree b) in *.
  exists (diag D (shn (D - D) (kn b)) (shn (D - D) (cf s))), (kn b (D + 1) - kn b D).
  assert (X0 : lo_end b = kn b D) by exact A.
  assert (ACT : forall x, lo_end b <= x <= kn b (D + 1) -> active b x D).
  { intros x Hx. split; [fold D; lia|]. split; [fold D; lia|]. split; [exact C|].
    destruct (Req_dec x (kn b D)) as [->|N]; [right|left]; [|lra].
    repeat split; auto. }
  split; [unfold kn; lra|]. split.
  - intros x Hx. apply (call_diag s x D); auto. apply ACT. lra.
  - assert (HA := ACT (lo_end b) ltac:(unfold kn in *; lra)).
    assert (HA' : active (sbasis (derivative s 1)) (lo_end b) (D - 1)).
    { unfold active. rewrite deriv1_degree, deriv1_knots, length_trim. fold b D.
      split; [lia|]. split; [lia|].
      rewrite (deriv1_kn s (D - 1)), (deriv1_kn s (D - 1 + 1)), (deriv1_kn s 0) by (fold b; lia). fold b.
      replace (S (D - 1)) with D by lia. replace (S (D - 1 + 1)) with (D + 1)%nat by lia.
      split; [exact C|]. right. split; [exact A|]. split; [|lia].
      pose proof (Hs 0%nat 1%nat ltac:(lia) ltac:(lia)). pose proof (Hs 1%nat D ltac:(lia) ltac:(lia)).
      unfold kn. lra. }
    rewrite (call_diag (derivative s 1) (lo_end b) (D - 1)) by (auto; apply WF').
    rewrite deriv1_degree. fold b D.
    apply (piece_derivable s D (lo_end b) Hs SZ HD (lo_end b) HA).
Qed.

Lemma end_right : forall s, well_formed (sbasis s) -> sized s -> clamped (sbasis s) ->
  (1 <= degree (sbasis s))%nat ->
  exists g e, 0 < e /\ (forall x, hi_end (sbasis s) - e < x <= hi_end (sbasis s) -> call s x = g x) /\
    derivable_pt_lim g (hi_end (sbasis s)) (call (derivative s 1) (hi_end (sbasis s))).
Proof.
  intros s WF SZ C HD. assert (WF' := deriv1_wf s HD WF). assert (SZ' := deriv1_sized s HD SZ).
  destruct (clamped_ends _ WF C) as (_ & ER & _). destruct C as (A & B & C & E).
  pose proof WF as [Hs Hl].
  set (b := sbasis s) in *. set (D := degree b) in *. set (J := (length (knots b) - D - 2)%nat).
  assert (J1 : (J + 1 = length (knots b) - D - 1)%nat) by (unfold J; lia).
  assert (X0 : hi_end b = kn b (J + 1)) by (rewrite J1; symmetry; exact B).
  assert (XJ : kn b J < kn b (J + 1)) by (rewrite J1; exact E).
  exists (diag D (shn (J - D) (kn b)) (shn (J - D) (cf s))), (kn b (J + 1) - kn b J).
  assert (ACT : forall x, kn b J < x <= kn b (J + 1) -> active b x J).
  { intros x Hx. apply active_inside; fold D; auto; unfold J; lia. }
  split; [lra|]. split.
  - intros x Hx. apply (call_diag s x J); auto. apply ACT. lra.
  - assert (HA := ACT (hi_end b) ltac:(lra)).
    assert (HA' : active (sbasis (derivative s 1)) (hi_end b) (J - 1)).
    { apply deriv1_active; auto. fold b. lra. }
    rewrite (call_diag (derivative s 1) (hi_end b) (J - 1)) by (auto; apply WF').
    rewrite deriv1_degree. fold b D.
    apply (piece_derivable s J (hi_end b) Hs SZ HD (hi_end b) HA).
Qed.

Lemma deriv_ends : forall o s, (o <= degree (sbasis s))%nat -> well_formed (sbasis s) -> sized s ->
  clamped (sbasis s) -> lo_end (sbasis (derivative s o)) = lo_end (sbasis s) /\
  hi_end (sbasis (derivative s o)) = hi_end (sbasis s).
Proof.
  intros o s Ho WF SZ C. destruct (deriv_inv o s Ho WF SZ) as (A & B & E & F & G & _).
  destruct (clamped_ends _ WF C) as (H1 & H2 & _).
  destruct (clamped_ends _ A (deriv_clamped o s Ho WF SZ C)) as (H3 & H4 & _).
  rewrite H1, H2, H3, H4. auto.
Qed.

(** the same for higher derivatives *)
Lemma end_left_o : forall s o, well_formed (sbasis s) -> sized s -> clamped (sbasis s) ->
  (o < degree (sbasis s))%nat ->
  exists g e, 0 < e /\
    (forall x, lo_end (sbasis s) <= x < lo_end (sbasis s) + e -> call (derivative s o) x = g x) /\
    derivable_pt_lim g (lo_end (sbasis s)) (call (derivative s (S o)) (lo_end (sbasis s))).
Proof.
  intros s o WF SZ C Ho. destruct (deriv_inv o s ltac:(lia) WF SZ) as (A & B & E & _).
  destruct (deriv_ends o s ltac:(lia) WF SZ C) as [H1 H2].
  destruct (end_left (derivative s o) A B (deriv_clamped o s ltac:(lia) WF SZ C) ltac:(lia)) as (g & e & P & Q & R).
  exists g, e. rewrite H1 in *. rewrite derivative_iter. auto.
Qed.

Lemma end_right_o : forall s o, well_formed (sbasis s) -> sized s -> clamped (sbasis s) ->
  (o < degree (sbasis s))%nat ->
  exists g e, 0 < e /\
    (forall x, hi_end (sbasis s) - e < x <= hi_end (sbasis s) -> call (derivative s o) x = g x) /\
    derivable_pt_lim g (hi_end (sbasis s)) (call (derivative s (S o)) (hi_end (sbasis s))).
Proof.
  intros s o WF SZ C Ho. destruct (deriv_inv o s ltac:(lia) WF SZ) as (A & B & E & _).
  destruct (deriv_ends o s ltac:(lia) WF SZ C) as [H1 H2].
  destruct (end_right (derivative s o) A B (deriv_clamped o s ltac:(lia) WF SZ C) ltac:(lia)) as (g & e & P & Q & R).
  exists g, e. rewrite H2 in *. rewrite derivative_iter. auto.
Qed.

Lemma deriv_in_of_lim : forall f lo hi t d, derivable_pt_lim f t d -> deriv_in lo hi f t d.
Proof.
  intros f lo hi t d H eps He. destruct (H eps He) as [dl Hd].
  exists dl. split; [apply cond_pos|]. intros h H0 H1 _. apply Hd; auto.
Qed.

Lemma deriv_in_local : forall f g lo hi t d e, 0 < e -> lo <= t <= hi ->
  (forall x, lo <= x <= hi -> Rabs (x - t) < e -> f x = g x) ->
  derivable_pt_lim g t d -> deriv_in lo hi f t d.
Proof.
  intros f g lo hi t d e He Ht Hfg H eps Hp. destruct (H eps Hp) as [dl Hd].
  exists (Rmin dl e). split; [apply Rmin_pos; [apply cond_pos|exact He]|].
  intros h H0 H1 H2. pose proof (Rmin_l dl e). pose proof (Rmin_r dl e).
  rewrite (Hfg (t + h)), (Hfg t); auto.
  - apply Hd; auto. lra.
  - rewrite Rminus_diag_eq by reflexivity. rewrite Rabs_R0. exact He.
  - replace (t + h - t) with h by ring. lra.
Qed.

(** a clamped spline is differentiable in its whole domain, one-sided at the ends *)
Theorem derivative_within : forall s o x, well_formed (sbasis s) -> sized s -> clamped (sbasis s) ->
  (o < degree (sbasis s))%nat -> lo_end (sbasis s) <= x <= hi_end (sbasis s) ->
  (lo_end (sbasis s) < x < hi_end (sbasis s) -> mult_le (sbasis s) x (degree (sbasis s) - o - 1)) ->
  deriv_in (lo_end (sbasis s)) (hi_end (sbasis s)) (call (derivative s o)) x (call (derivative s (S o)) x).
Proof.
  intros s o x WF SZ C Ho Hx Hm. destruct (clamped_ends _ WF C) as (H1 & H2 & H3).
  destruct (Req_dec x (lo_end (sbasis s))) as [EL|NL].
  - subst x. destruct (end_left_o s o WF SZ C Ho) as (g & e & P & Q & Rr).
    apply (deriv_in_local _ g _ _ _ _ e); auto.
    intros x Hx' Ha. apply Q. destruct (Rabs_def2 _ _ Ha). lra.
  - destruct (Req_dec x (hi_end (sbasis s))) as [ER|NR].
    + subst x. destruct (end_right_o s o WF SZ C Ho) as (g & e & P & Q & Rr).
      apply (deriv_in_local _ g _ _ _ _ e); auto.
      intros x Hx' Ha. apply Q. destruct (Rabs_def2 _ _ Ha). lra.
    + apply deriv_in_of_lim. apply derivative_correct; auto; [rewrite <- H1, <- H2; lra|].
      apply Hm. lra.
Qed.
