From Coq Require Import Reals List Arith Lia Lra Ranalysis.
From Verif Require Import Spline_Model Spline_Spec Spline_Proofs Spline_Proofs2 Spline_Proofs3 Splop_Spec
  Vehicle_Spec End_Proofs Multi_Model Multi_Spec.
Import ListNotations.
Local Open Scope R_scope.

Lemma derivable_scaled : forall g T d t l, 0 < T -> derivable_pt_lim g (t / T) l ->
  derivable_pt_lim (fun u => g (u / T) / T ^ d) t (l / T ^ (S d)).
Proof.
  intros g T d t l HT H eps He.
  assert (PT : 0 < T ^ S d) by (apply pow_lt; exact HT).
  assert (P : 0 < eps * T ^ (S d)) by (apply Rmult_lt_0_compat; auto).
  destruct (H _ P) as [dl Hd].
  assert (Q : 0 < dl * T) by (apply Rmult_lt_0_compat; [apply cond_pos|exact HT]).
  exists (mkposreal _ Q). intros h H0 H1. simpl in H1.
  assert (K1 : h / T <> 0).
  { unfold Rdiv. apply Rmult_integral_contrapositive_currified; auto. apply Rinv_neq_0_compat. lra. }
  assert (K2 : Rabs (h / T) < dl).
  { unfold Rdiv. rewrite Rabs_mult, (Rabs_right (/ T)) by (left; apply Rinv_0_lt_compat; lra).
    apply (Rmult_lt_reg_r T); auto. rewrite Rmult_assoc, Rinv_l, Rmult_1_r by lra. exact H1. }
  specialize (Hd _ K1 K2).
  replace ((t + h) / T) with (t / T + h / T) by (field; lra).
  replace ((g (t / T + h / T) / T ^ d - g (t / T) / T ^ d) / h - l / T ^ S d)
    with (((g (t / T + h / T) - g (t / T)) / (h / T) - l) / T ^ S d).
  2:{ simpl. field. repeat split; try lra. apply pow_nonzero. lra. }
  unfold Rdiv at 1. rewrite Rabs_mult, (Rabs_right (/ T ^ S d)) by (left; apply Rinv_0_lt_compat; exact PT).
  apply (Rmult_lt_reg_r (T ^ S d)); auto.
  rewrite Rmult_assoc, Rinv_l, Rmult_1_r by lra. exact Hd.
Qed.

Lemma derivable_shifted : forall f T t l, derivable_pt_lim f (t - T) l ->
  derivable_pt_lim (fun u => f (u - T)) t l.
Proof.
  intros f T t l H eps He. destruct (H eps He) as [dl Hd]. exists dl. intros h H0 H1.
  replace (t + h - T) with (t - T + h) by ring. apply Hd; auto.
Qed.

Lemma derivable_local : forall f g t l e, 0 < e -> (forall x, t - e < x < t + e -> f x = g x) ->
  derivable_pt_lim g t l -> derivable_pt_lim f t l.
Proof.
  intros f g t l e He Hfg H eps Hp. destruct (H eps Hp) as [dl Hd].
  assert (Q : 0 < Rmin dl e) by (apply Rmin_pos; [apply cond_pos|exact He]).
  exists (mkposreal _ Q). intros h H0 H1. simpl in H1.
  pose proof (Rmin_l dl e). pose proof (Rmin_r dl e). destruct (Rabs_def2 h e ltac:(lra)).
  rewrite (Hfg (t + h)), (Hfg t) by lra. apply Hd; auto. lra.
Qed.

Lemma continuity_local : forall f g t e, 0 < e -> (forall x, t - e < x < t + e -> f x = g x) ->
  continuity_pt g t -> continuity_pt f t.
Proof.
  intros f g t e He Hfg H. apply (glue_continuity f g g t e); auto; intros x Hx; apply Hfg; lra.
Qed.

Lemma continuity_scaled : forall g T d t, 0 < T -> continuity_pt g (t / T) ->
  continuity_pt (fun u => g (u / T) / T ^ d) t.
Proof.
  intros g T d t HT H.
  apply (continuity_local _ (mult_fct (comp g (mult_fct id (fct_cte (/ T)))) (fct_cte (/ T ^ d))) t 1); [lra| |].
  - intros x _. reflexivity.
  - apply continuity_pt_mult.
    + apply continuity_pt_comp; [|exact H].
      apply continuity_pt_mult; [apply derivable_continuous_pt, derivable_pt_id|].
      apply continuity_pt_const. intros a b. reflexivity.
    + apply continuity_pt_const. intros a b. reflexivity.
Qed.

Lemma continuity_shifted : forall f T t, continuity_pt f (t - T) -> continuity_pt (fun u => f (u - T)) t.
Proof.
  intros f T t H.
  apply (continuity_local _ (comp f (minus_fct id (fct_cte T))) t 1); [lra| |].
  - intros x _. reflexivity.
  - apply continuity_pt_comp; [|exact H].
    apply continuity_pt_minus; [apply derivable_continuous_pt, derivable_pt_id|].
    apply continuity_pt_const. intros a b. reflexivity.
Qed.

(** ** one segment *)
Section Segment.
Variables (p : nat) (s : bspline).
Hypothesis RS : regular_spline p s.

Lemma rs_parts : well_formed (sbasis s) /\ sized s /\ clamped (sbasis s) /\ degree (sbasis s) = p /\
  lo_end (sbasis s) = 0 /\ hi_end (sbasis s) = 1 /\ dom_left (sbasis s) = 0 /\ dom_right (sbasis s) = 1.
Proof.
  destruct RS as ((A & B & C & D) & E & F & _). destruct (clamped_ends _ A B) as (G & H & _).
  unfold lo_end, hi_end in *. repeat split; auto; try lra; try apply A; try apply B.
Qed.

Lemma seg_derivable : forall T d t, 0 < T -> (d + 1 < p)%nat -> 0 < t < T ->
  derivable_pt_lim (in_seconds s T d) t (in_seconds s T (S d) t).
Proof.
  intros T d t HT Hd Ht. destruct rs_parts as (A & B & C & D & _ & _ & E & F).
  assert (X : 0 < t / T < 1).
  { split; [apply Rdiv_lt_0_compat; lra|]. apply (Rmult_lt_reg_r T); auto. unfold Rdiv.
    rewrite Rmult_assoc, Rinv_l by lra. lra. }
  unfold in_seconds. apply derivable_scaled; auto. apply derivative_correct; auto; try lia.
  - rewrite E, F. exact X.
  - apply (mult_le_weaken _ _ 1); [lia|apply A|]. apply RS. exact X.
Qed.

Lemma seg_continuous : forall T d t, 0 < T -> (d < p)%nat -> 0 < t < T ->
  continuity_pt (in_seconds s T d) t.
Proof.
  intros T d t HT Hd Ht. destruct rs_parts as (A & B & C & D & _ & _ & E & F).
  assert (X : 0 < t / T < 1).
  { split; [apply Rdiv_lt_0_compat; lra|]. apply (Rmult_lt_reg_r T); auto. unfold Rdiv.
    rewrite Rmult_assoc, Rinv_l by lra. lra. }
  unfold in_seconds. apply continuity_scaled; auto.
  destruct (deriv_inv d s ltac:(lia) A B) as (A' & B' & C' & E' & F' & G').
  apply call_continuous; auto.
  - rewrite E', F', E, F. exact X.
  - apply (mult_le_weaken _ _ 1); [lia|apply A'|]. apply G'. apply RS. exact X.
Qed.

Lemma seg_left : forall T d, 0 < T -> (d < p)%nat ->
  exists g e, 0 < e /\ (forall x, 0 <= x < e -> in_seconds s T d x = g x) /\
    derivable_pt_lim g 0 (in_seconds s T (S d) 0).
Proof.
  intros T d HT Hd. destruct rs_parts as (A & B & C & D & E & F & _ & _).
  destruct (end_left_o s d A B C ltac:(lia)) as (g & e & P & Q & Rr). rewrite E in *.
  exists (fun x => g (x / T) / T ^ d), (e * T). split; [apply Rmult_lt_0_compat; auto|].
  split.
  - intros x Hx. unfold in_seconds. f_equal. apply Q. split.
    + apply Rmult_le_pos; [lra|]. left. apply Rinv_0_lt_compat. exact HT.
    + apply (Rmult_lt_reg_r T); auto. unfold Rdiv. rewrite Rmult_assoc, Rinv_l by lra. lra.
  - unfold in_seconds. apply derivable_scaled; auto.
    replace (0 / T) with 0 by (field; lra). exact Rr.
Qed.

Lemma seg_right : forall T d, 0 < T -> (d < p)%nat ->
  exists g e, 0 < e /\ (forall x, T - e < x <= T -> in_seconds s T d x = g x) /\
    derivable_pt_lim g T (in_seconds s T (S d) T).
Proof.
  intros T d HT Hd. destruct rs_parts as (A & B & C & D & E & F & _ & _).
  destruct (end_right_o s d A B C ltac:(lia)) as (g & e & P & Q & Rr). rewrite F in *.
  exists (fun x => g (x / T) / T ^ d), (e * T). split; [apply Rmult_lt_0_compat; auto|].
  split.
  - intros x Hx. unfold in_seconds. f_equal. apply Q.
    assert (X : x / T * T = x) by (field; lra).
    split; apply (Rmult_lt_reg_r T) || apply (Rmult_le_reg_r T); auto; rewrite X; lra.
  - unfold in_seconds. apply derivable_scaled; auto.
    replace (T / T) with 1 by (field; lra). exact Rr.
Qed.
End Segment.

(** ** the connection constraints *)
Lemma connection_spec : forall p n s1 s2 T1 T2, regular_spline p s1 -> regular_spline p s2 ->
  0 < T1 -> 0 < T2 -> (n <= p)%nat ->
  (Forall (fun v => v = 0) (connection n s1 s2 T1 T2) <->
   forall d, (d < n)%nat -> in_seconds s1 T1 d T1 = in_seconds s2 T2 d 0).
Proof.
  intros p n s1 s2 T1 T2 R1 R2 H1 H2 Hn.
  destruct (rs_parts p s1 R1) as (A1 & B1 & C1 & D1 & _). destruct (rs_parts p s2 R2) as (A2 & B2 & C2 & D2 & _).
  assert (K : forall d, (d < n)%nat ->
    (evalspline (derivative s1 d) 1 * T2 ^ d - evalspline (derivative s2 d) 0 * T1 ^ d = 0 <->
     in_seconds s1 T1 d T1 = in_seconds s2 T2 d 0)).
  { intros d Hd. unfold in_seconds.
    destruct (deriv_inv d s1 ltac:(lia) A1 B1) as (_ & Z1 & _). destruct (deriv_inv d s2 ltac:(lia) A2 B2) as (_ & Z2 & _).
    rewrite !evalspline_call by auto.
    replace (T1 / T1) with 1 by (field; lra). replace (0 / T2) with 0 by (field; lra).
    assert (0 < T1 ^ d) by (apply pow_lt; auto). assert (0 < T2 ^ d) by (apply pow_lt; auto).
    split; intros E.
    - apply (Rmult_eq_reg_r (T1 ^ d * T2 ^ d)).
      2:{ apply Rmult_integral_contrapositive_currified; lra. }
      field_simplify; lra.
    - apply (f_equal (fun v => v * (T1 ^ d * T2 ^ d))) in E.
      field_simplify in E; try lra. }
  unfold connection. rewrite Forall_map, Forall_forall. split.
  - intros H d Hd. apply K; auto. apply H. apply in_seq. lia.
  - intros H d Hd. apply in_seq in Hd. apply K; [lia|]. apply H. lia.
Qed.



Lemma travelled_head : forall s T rest d x, x <= T -> travelled ((s, T) :: rest) d x = in_seconds s T d x.
Proof.
  intros s T rest d x H. destruct rest as [|q r]; [reflexivity|].
  cbn [travelled]. destruct (Rle_dec x T); [reflexivity|lra].
Qed.
Lemma travelled_tail : forall s T q r d x, T < x ->
  travelled ((s, T) :: q :: r) d x = travelled (q :: r) d (x - T).
Proof.
  intros s T q r d x H. cbn [travelled]. destruct (Rle_dec x T); [lra|]. reflexivity.
Qed.

Lemma duration_nonneg : forall p l, good_segs p l -> 0 <= duration l.
Proof.
  intros p l H. induction H as [|q l [_ H] _ IH]; simpl; lra.
Qed.

Theorem travelled_derivable : forall p n l, good_segs p l -> meets n l -> (n <= p)%nat ->
  forall d t, (d + 1 < n)%nat -> 0 < t < duration l ->
  derivable_pt_lim (travelled l d) t (travelled l (S d) t).
Proof.
  intros p n l. induction l as [|[s T] rest IH]; intros G M Hn d t Hd Ht; [simpl in Ht; lra|].
  inversion G as [|? ? [RS HT] G']; subst. simpl in RS, HT. cbn [duration fold_right snd] in Ht.
  destruct rest as [|[s2 T2] r].
  - simpl in Ht. apply (seg_derivable p s RS); auto; [lia|lra].
  - assert (IH' := IH G' (proj2 M) Hn). fold (duration ((s2, T2) :: r)) in Ht.
    inversion G' as [|? ? [RS2 HT2] _]; subst. simpl in RS2, HT2.
    destruct (Rtotal_order t T) as [L|[E|L]].
    + rewrite (travelled_head _ _ _ (S d)) by lra.
      apply (derivable_local _ (in_seconds s T d) t _ (T - t)); [lra| |].
      * intros x Hx. apply travelled_head. lra.
      * apply (seg_derivable p s RS); auto; [lia|lra].
    + subst t. rewrite travelled_head by lra.
      destruct M as [M _].
      destruct (seg_right p s RS T d HT ltac:(lia)) as (g & e & P & Q & D1).
      destruct (seg_left p s2 RS2 T2 d HT2 ltac:(lia)) as (h & e2 & P2 & Q2 & D2).
      set (e' := Rmin e (Rmin e2 T2)).
      assert (E1 : e' <= e) by apply Rmin_l.
      assert (E2 : e' <= e2) by (unfold e'; eapply Rle_trans; [apply Rmin_r|apply Rmin_l]).
      assert (E3 : e' <= T2) by (unfold e'; eapply Rle_trans; [apply Rmin_r|apply Rmin_r]).
      assert (E0 : 0 < e') by (unfold e'; repeat apply Rmin_pos; auto).
      apply (glue_derivable _ g (fun u => h (u - T)) T e'); auto.
      * rewrite <- Q by lra. replace (T - T) with 0 by ring. rewrite <- Q2 by lra. apply M. lia.
      * intros x Hx. rewrite travelled_head by lra. apply Q. lra.
      * intros x Hx. rewrite travelled_tail by lra. rewrite travelled_head by lra. apply Q2. lra.
      * apply derivable_shifted. replace (T - T) with 0 by ring.
        rewrite (M (S d)) by lia. exact D2.
    + rewrite travelled_tail by lra.
      apply (derivable_local _ (fun u => travelled ((s2, T2) :: r) d (u - T)) t _ (t - T)); [lra| |].
      * intros x Hx. apply travelled_tail. lra.
      * apply derivable_shifted. apply IH'; auto. lra.
Qed.

Theorem travelled_continuous : forall p n l, good_segs p l -> meets n l -> (n <= p)%nat ->
  forall d t, (d < n)%nat -> 0 < t < duration l -> continuity_pt (travelled l d) t.
Proof.
  intros p n l. induction l as [|[s T] rest IH]; intros G M Hn d t Hd Ht; [simpl in Ht; lra|].
  inversion G as [|? ? [RS HT] G']; subst. simpl in RS, HT. cbn [duration fold_right snd] in Ht.
  destruct rest as [|[s2 T2] r].
  - simpl in Ht. apply (seg_continuous p s RS); auto; [lia|lra].
  - assert (IH' := IH G' (proj2 M) Hn). fold (duration ((s2, T2) :: r)) in Ht.
    inversion G' as [|? ? [RS2 HT2] _]; subst. simpl in RS2, HT2.
    destruct (Rtotal_order t T) as [L|[E|L]].
    + apply (continuity_local _ (in_seconds s T d) t (T - t)); [lra| |].
      * intros x Hx. apply travelled_head. lra.
      * apply (seg_continuous p s RS); auto; [lia|lra].
    + subst t. destruct M as [M _].
      destruct (seg_right p s RS T d HT ltac:(lia)) as (g & e & P & Q & D1).
      destruct (seg_left p s2 RS2 T2 d HT2 ltac:(lia)) as (h & e2 & P2 & Q2 & D2).
      set (e' := Rmin e (Rmin e2 T2)).
      assert (E1 : e' <= e) by apply Rmin_l.
      assert (E2 : e' <= e2) by (unfold e'; eapply Rle_trans; [apply Rmin_r|apply Rmin_l]).
      assert (E3 : e' <= T2) by (unfold e'; eapply Rle_trans; [apply Rmin_r|apply Rmin_r]).
      assert (E0 : 0 < e') by (unfold e'; repeat apply Rmin_pos; auto).
      apply (glue_continuity _ g (fun u => h (u - T)) T e'); auto.
      * rewrite <- Q by lra. replace (T - T) with 0 by ring. rewrite <- Q2 by lra. apply M. lia.
      * intros x Hx. rewrite travelled_head by lra. apply Q. lra.
      * intros x Hx. rewrite travelled_tail by lra. rewrite travelled_head by lra. apply Q2. lra.
      * apply derivable_continuous_pt. exists (in_seconds s T (S d) T). exact D1.
      * apply continuity_shifted. replace (T - T) with 0 by ring.
        apply derivable_continuous_pt. exists (in_seconds s2 T2 (S d) 0). exact D2.
    + apply (continuity_local _ (fun u => travelled ((s2, T2) :: r) d (u - T)) t (t - T)); [lra| |].
      * intros x Hx. apply travelled_tail. lra.
      * apply continuity_shifted. apply IH'; auto. lra.
Qed.

(** ** lists of segments *)


Lemma regular_nth : forall p m sg i, length sg = m -> Forall (regular_spline p) sg -> (i < m)%nat ->
  regular_spline p (nth i sg no_spline).
Proof.
  intros p m sg i L F Hi. rewrite Forall_forall in F. apply F. apply nth_In. lia.
Qed.

Lemma component_good : forall p m segs Ts i, regular_segments p m segs -> Forall (fun T => 0 < T) Ts ->
  (i < m)%nat -> good_segs p (component i segs Ts).
Proof.
  intros p m segs. induction segs as [|sg segs IH]; intros [|T Ts] i RS PT Hi; try constructor.
  - inversion RS as [|? ? [L F] RS']; subst. inversion PT; subst. split; [|exact H1].
    apply (regular_nth p (length sg)); auto.
  - inversion RS; subst. inversion PT; subst. apply IH; auto.
Qed.

Lemma flat_zero : forall {A} (f : A -> list R) l, Forall (fun v => v = 0) (flat_map f l) ->
  forall a, In a l -> Forall (fun v => v = 0) (f a).
Proof.
  intros A f l. induction l as [|x l IH]; intros H a [].
  - subst. simpl in H. apply Forall_app in H. tauto.
  - simpl in H. apply Forall_app in H. apply IH; tauto.
Qed.

Lemma nth_combine_in : forall (l1 l2 : list bspline) i d1 d2, (i < length l1)%nat -> length l1 = length l2 ->
  In (nth i l1 d1, nth i l2 d2) (combine l1 l2).
Proof.
  intros l1. induction l1 as [|a l1 IH]; intros [|b l2] i d1 d2 Hi L; simpl in *; try lia.
  destruct i as [|i]; [left; reflexivity|right]. apply IH; lia.
Qed.

Lemma gcode_meets : forall p m n segs Ts i, regular_segments p m segs -> Forall (fun T => 0 < T) Ts ->
  (n <= p)%nat -> (i < m)%nat -> Forall (fun v => v = 0) (gcode_connections n segs Ts) ->
  meets n (component i segs Ts).
Proof.
  intros p m n segs. induction segs as [|sg1 segs IH]; intros Ts i RS PT Hn Hi C; [destruct Ts; exact I|].
  destruct Ts as [|T1 Ts]; [exact I|]. inversion RS as [|? ? [L1 F1] RS']; subst.
  inversion PT as [|? ? P1 PT']; subst.
  destruct segs as [|sg2 segs]; [destruct Ts; exact I|]. destruct Ts as [|T2 Ts]; [exact I|].
  inversion RS' as [|? ? [L2 F2] _]; subst. inversion PT' as [|? ? P2 _]; subst.
  cbn [gcode_connections] in C. apply Forall_app in C as [C1 C2].
  split; [|apply IH; auto].
  apply (connection_spec p n); auto; try (eapply regular_nth; eauto).
  assert (X := flat_zero _ _ C1 _ (nth_combine_in sg1 sg2 i no_spline no_spline Hi (eq_sym L2))).
  exact X.
Qed.

Lemma connections_gcode : forall p m segs Ts, regular_segments p m segs ->
  connections segs Ts = gcode_connections p segs Ts.
Proof.
  intros p m segs. induction segs as [|sg1 segs IH]; intros Ts RS; [reflexivity|].
  destruct segs as [|sg2 segs]; [reflexivity|]. destruct Ts as [|T1 [|T2 Ts]]; try reflexivity.
  cbn [connections gcode_connections]. inversion RS as [|? ? [L1 F1] RS']; subst.
  f_equal; [|exact (IH (T2 :: Ts) RS')].
  rewrite !flat_map_concat_map. f_equal. apply map_ext_in. intros [a c] Hin.
  apply in_combine_l in Hin. rewrite Forall_forall in F1. destruct (F1 a Hin) as (_ & _ & E & _).
  simpl. rewrite E. reflexivity.
Qed.

Theorem multi_smooth : forall p m segs Ts i d t, regular_segments p m segs ->
  Forall (fun T => 0 < T) Ts -> (i < m)%nat ->
  Forall (fun v => v = 0) (connections segs Ts) ->
  0 < t < duration (component i segs Ts) ->
  ((d + 1 < p)%nat -> derivable_pt_lim (travelled (component i segs Ts) d) t
                        (travelled (component i segs Ts) (S d) t)) /\
  ((d < p)%nat -> continuity_pt (travelled (component i segs Ts) d) t).
Proof.
  intros p m segs Ts i d t RS PT Hi C Ht.
  rewrite (connections_gcode p m) in C by auto.
  assert (G := component_good p m segs Ts i RS PT Hi).
  assert (M := gcode_meets p m p segs Ts i RS PT (Nat.le_refl _) Hi C).
  split; intros Hd.
  - apply (travelled_derivable p p); auto.
  - apply (travelled_continuous p p); auto.
Qed.

Theorem gcode_smooth : forall p m segs Ts i d t, regular_segments p m segs -> (1 <= m)%nat ->
  Forall (fun T => 0 < T) Ts -> (i < m)%nat ->
  Forall (fun v => v = 0) (gcode_connections (gcode_continuity segs) segs Ts) ->
  0 < t < duration (component i segs Ts) ->
  ((d + 1 < p)%nat -> derivable_pt_lim (travelled (component i segs Ts) d) t
                        (travelled (component i segs Ts) (S d) t)) /\
  ((d < p)%nat -> continuity_pt (travelled (component i segs Ts) d) t).
Proof.
  intros p m segs Ts i d t RS Hm PT Hi C Ht. apply (multi_smooth p m); auto.
  rewrite (connections_gcode p m) by auto.
  replace p with (gcode_continuity segs); [exact C|].
  destruct segs as [|sg segs]; [simpl in Ht; lra|].
  inversion RS as [|? ? [L F] _]; subst. destruct sg as [|s sg]; [simpl in *; lia|].
  inversion F as [|? ? (_ & _ & E & _) _]; subst. reflexivity.
Qed.

(** ** start and end *)
Lemma travelled_start : forall p s T0 rest d c t, regular_spline p s -> (d <= p)%nat -> 0 < T0 -> t <= T0 ->
  init_values [(derivative s d, c * T0 ^ d)] t T0 = [0] -> travelled ((s, T0) :: rest) d t = c.
Proof.
  intros p s T0 rest d c t RS Hd HT Ht H. rewrite travelled_head by lra.
  destruct (rs_parts p s RS) as (A & B & C & D & _).
  destruct (deriv_inv d s ltac:(lia) A B) as (_ & Z & _).
  unfold init_values in H. cbn in H. injection H as H. rewrite evalspline_call in H by auto.
  unfold in_seconds. assert (0 < T0 ^ d) by (apply pow_lt; auto).
  replace (call (derivative s d) (t / T0)) with (c * T0 ^ d) by lra. field. lra.
Qed.

Lemma travelled_last : forall p l s T d, good_segs p l -> 0 < T ->
  travelled (l ++ [(s, T)]) d (duration (l ++ [(s, T)])) = in_seconds s T d T.
Proof.
  intros p l s T d. induction l as [|[s1 T1] l IH]; intros G HT.
  - simpl. f_equal. lra.
  - inversion G as [|? ? [_ H1] G']; subst. simpl in H1. simpl app.
    assert (P : 0 < duration (l ++ [(s, T)])).
    { clear - HT G'. induction G' as [|q l [_ H] _ IH]; simpl; [lra|]. simpl in IH. lra. }
    change (duration ((s1, T1) :: l ++ [(s, T)])) with (T1 + duration (l ++ [(s, T)])).
    destruct (l ++ [(s, T)]) as [|q r] eqn:E; [destruct l; discriminate|].
    rewrite travelled_tail by lra. rewrite <- IH by auto. f_equal. ring.
Qed.

Lemma travelled_end : forall p l s T d c, good_segs p l -> 0 < T ->
  terminal_values [(derivative s d, c * T ^ d)] = [0] ->
  travelled (l ++ [(s, T)]) d (duration (l ++ [(s, T)])) = c.
Proof.
  intros p l s T d c G HT H. rewrite (travelled_last p) by auto.
  unfold terminal_values in H. cbn in H. injection H as H.
  unfold in_seconds. assert (0 < T ^ d) by (apply pow_lt; auto).
  replace (T / T) with 1 by (field; lra).
  replace (call (derivative s d) 1) with (c * T ^ d) by lra. field. lra.
Qed.

Lemma duration_total : forall segs Ts i, length segs = length Ts ->
  duration (component i segs Ts) = total_time Ts.
Proof.
  intros segs Ts i L. unfold total_time.
  assert (G : forall segs Ts a, length segs = length Ts ->
    fold_left Rplus Ts a = a + duration (component i segs Ts)).
  { clear. intros segs. induction segs as [|sg segs IH]; intros [|T Ts] a L; try discriminate; simpl; [ring|].
    simpl in L. rewrite (IH Ts (a + T)) by lia. unfold component, duration. ring. }
  rewrite (G segs Ts 0 L). ring.
Qed.

(** ** stop criterion and warm start *)
Theorem step_times_spec : forall T u, 0 < u -> u <= T ->
  let '(v, target) := step_times T u in 0 <= v /\ 0 < target /\ 0 <= v / target <= 1 /\ T - v <= target.
Proof.
  intros T u Hu HT. unfold step_times, Rltb. destruct (Rlt_dec T (2 * u)) as [L|L].
  - split; [lra|]. split; [lra|]. split; [|lra]. split.
    + apply Rmult_le_pos; [lra|]. left. apply Rinv_0_lt_compat. lra.
    + apply (Rmult_le_reg_r T); [lra|]. unfold Rdiv. rewrite Rmult_assoc, Rinv_l by lra. lra.
  - split; [lra|]. split; [lra|]. split; [|lra]. split.
    + apply Rmult_le_pos; [lra|]. left. apply Rinv_0_lt_compat. lra.
    + apply (Rmult_le_reg_r (T - u)); [lra|]. unfold Rdiv. rewrite Rmult_assoc, Rinv_l by lra. lra.
Qed.
