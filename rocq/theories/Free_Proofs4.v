(** Free end time: limits and deviation from the plan. *)
From Coq Require Import String Reals QArith Qreals ZArith Lra Lia List Arith Bool.
From Coq Require Lqa.
From Verif Require Import Spline_Model Spline_Spec Spline_Proofs3 Splop_Spec Vehicle_Model Vehicle_Spec Vehicle_Proofs Vehicle_Proofs2 Quad_Proofs
  Wheel_Proofs Lift_Model Lift_Spec Lift_Proofs Lift_Proofs2 Lift_Proofs3 Lift_Proofs4
  Loop_Model Loop_Spec Loop_Proofs Loop_Proofs2 Loop_Proofs3 Loop_Proofs4 Loop_Proofs5 Loop_Proofs6 Loop_Proofs7
  Free_Model Free_Spec Free_Proofs Free_Proofs2 Free_Proofs3.
From Verif Require Timing_Model Timing_Proofs Timing_Proofs2.
Import ListNotations.
Local Open Scope R_scope.
Local Notation length := List.length.

Lemma accepted_f_starts : forall g m nd tol limits goal vchk rv sd w f, paced g m -> (dim g <= 10)%nat -> 0 < Q2R (motion f) -> proper g f ->
  f_accepted g nd tol limits goal vchk rv sd w f -> f_starts g w f.
Proof.
  intros g m nd tol limits goal vchk rv sd w f ST D HT [PA _] (_ & _ & SI & _) i Hi. cbv zeta in SI.
  destruct (PA i Hi) as (U & DG & _).
  assert (V : forall o r, (o <= 3)%nat -> In [SV i o; SN r] (init_cons (dim g) (p_state w) (p_input w) (Q2R (motion f))) ->
     jets (own (body f)) (0 / Q2R (motion f)) i o = r).
  { intros o r Ho Hin. apply (starts_value tol); rewrite ?own_path by lia; auto; [lia|].
    intros tup [<-|[]]. apply SI, Hin. }
  unfold fcourse, jets in *. rewrite own_path in V by lia. split.
  - rewrite (V 0%nat (nth i (p_state w) 0)); [cbn; field|lia|].
    apply in_or_app. left. apply in_map_iff. exists i. split; [reflexivity|apply in_seq; lia].
  - rewrite (V 1%nat (Q2R (motion f) * nth i (p_input w) 0)); [field; lra|lia|].
    apply in_or_app. right. apply in_map_iff. exists i. split; [reflexivity|apply in_seq; lia].
Qed.

(** limits that a plan keeps, per component *)
Definition f_within (g : settings) (fs : list fanswer) (vlo vhi alo ahi : nat -> R) : Prop :=
  forall n f i t, nth_error fs n = Some f -> (i < dim g)%nat -> 0 <= t <= Q2R (motion f) ->
    vlo i <= fcourse f 1 i t <= vhi i /\ alo i <= fcourse f 2 i t <= ahi i.

Lemma fcourse_incr : forall g m fs vlo vhi alo ahi n f i s t, paced g m -> timely g f -> proper g f ->
  f_within g fs vlo vhi alo ahi -> nth_error fs n = Some f -> (i < dim g)%nat -> 0 <= s -> s <= t -> t <= Q2R (motion f) ->
  alo i * (t - s) <= fcourse f 1 i t - fcourse f 1 i s <= ahi i * (t - s).
Proof.
  intros g m fs vlo vhi alo ahi n f i s t ST TI PF W N Hi A B C.
  apply (deriv_bounds 0 (Q2R (motion f)) (fcourse f 1 i) (fcourse f 2 i)); auto.
  - intros u Hu. apply (fcourse_deriv g); auto; [apply (timely_pos g m); assumption|lra].
  - intros u Hu. apply (W n f i u N Hi Hu).
Qed.

(** which sample interval a time belongs to *)
Lemma time_leg : forall g m fs f t, paced g m -> legs g fs f -> 0 <= t <= end_time g m fs f ->
  exists n f', nth_error (fs ++ [f]) n = Some f' /\ 0 <= t - at_update g n <= INR (count g m f') * Q2R (ts g).
Proof.
  intros g m fs f t ST LG I. pose proof (Q2R_pos _ (paced_upd g m ST)) as UP.
  unfold end_time in I. destruct (Rle_dec t (at_update g (length fs))) as [L|L].
  - destruct (Nat.eq_dec (length fs) 0) as [Z|Z].
    + exists 0%nat, f. destruct fs; [|discriminate]. split; [reflexivity|]. cbn [length] in I, L. unfold at_update in *. cbn [INR] in *.
      destruct (count_time g m f ST (proj1 (proj2 (proj2 LG)))). lra.
    + destruct (piece_of (Q2R (upd g)) (length fs) t UP ltac:(lia) ltac:(unfold at_update in L; lra)) as (n & Hn & In).
      destruct (legs_some fs f n ltac:(lia)) as (f' & N). exists n, f'. split; [exact N|].
      destruct (legs_nth g m fs f n f' ST LG N) as (_ & _ & _ & LO & _).
      rewrite (count_long g m f' (LO Hn)), <- (paced_real g m ST). rewrite S_INR in In. unfold at_update. lra.
  - exists (length fs), f. split; [rewrite nth_error_app2 by lia; rewrite Nat.sub_diag; reflexivity|lra].
Qed.

(** increments over the updates *)
Lemma incr_legs : forall g m fs f v a b, paced g m -> legs g fs f ->
  (forall n f' s t, nth_error (fs ++ [f]) n = Some f' -> at_update g n <= s -> s <= t ->
     t <= at_update g n + INR (count g m f') * Q2R (ts g) -> a * (t - s) <= v t - v s <= b * (t - s)) ->
  forall s t, 0 <= s -> s <= t -> t <= end_time g m fs f -> a * (t - s) <= v t - v s <= b * (t - s).
Proof.
  intros g m fs f v a b ST LG P. pose proof (Q2R_pos _ (paced_upd g m ST)) as UP.
  assert (FULL : forall s t, 0 <= s -> s <= t -> t <= at_update g (length fs) -> a * (t - s) <= v t - v s <= b * (t - s)).
  { intros s t A B C. apply (incr_glue v a b (Q2R (upd g)) (length fs)); try lra; [|exact C].
    intros n s' t' Hn A' B' C'. destruct (legs_some fs f n ltac:(lia)) as (f' & N).
    destruct (legs_nth g m fs f n f' ST LG N) as (_ & _ & _ & LO & _).
    apply (P n f' s' t' N); try assumption. rewrite (count_long g m f' (LO Hn)), <- (paced_real g m ST). rewrite S_INR in C'.
    unfold at_update. lra. }
  intros s t A B C. unfold end_time in C.
  assert (NL : nth_error (fs ++ [f]) (length fs) = Some f) by (rewrite nth_error_app2 by lia; rewrite Nat.sub_diag; reflexivity).
  destruct (Rle_dec t (at_update g (length fs))) as [L|L]; [apply FULL; assumption|].
  destruct (Rle_dec (at_update g (length fs)) s) as [M|M]; [apply (P (length fs) f s t NL); lra|].
  pose proof (FULL s (at_update g (length fs)) A ltac:(lra) ltac:(lra)) as X.
  pose proof (P (length fs) f (at_update g (length fs)) t NL ltac:(lra) ltac:(lra) ltac:(lra)) as Y. split; nra.
Qed.

Theorem free_limits : forall g m fs f p v vlo vhi alo ahi i, paced g m -> legs g fs f ->
  f_within g (fs ++ [f]) vlo vhi alo ahi -> (i < dim g)%nat ->
  (if ideal_update g then f_follows g m (fs ++ [f]) p v else f_interpolates g m (fs ++ [f]) p v) ->
  (forall t, 0 <= t <= end_time g m fs f -> vlo i <= v i t <= vhi i) /\
  (forall s t, 0 <= s -> s <= t -> t <= end_time g m fs f -> alo i * (t - s) <= v i t - v i s <= ahi i * (t - s)).
Proof.
  intros g m fs f p v vlo vhi alo ahi i ST LG W Hi M.
  pose proof (Q2R_pos _ (proj1 ST)) as HP. set (h := Q2R (ts g)) in *.
  destruct (ideal_update g).
  - assert (V : forall n f' t, nth_error (fs ++ [f]) n = Some f' -> 0 <= t - at_update g n <= INR (count g m f') * h ->
       v i t = fcourse f' 1 i (t - at_update g n) /\ 0 <= t - at_update g n <= Q2R (motion f')).
    { intros n f' t N I. destruct (M n f' i (t - at_update g n) N Hi I) as [_ X].
      replace (at_update g n + (t - at_update g n)) with t in X by ring. split; [exact X|].
      destruct (legs_nth g m fs f n f' ST LG N) as (_ & TI & _). destruct (count_time g m f' ST TI) as (_ & _ & Y). fold h in Y. lra. }
    split.
    + intros t I. destruct (time_leg g m fs f t ST LG I) as (n & f' & N & In). destruct (V n f' t N In) as [-> J].
      apply (W n f' i _ N Hi J).
    + apply (incr_legs g m fs f (v i) _ _ ST LG). intros n f' s t N A B C. fold h in C.
      destruct (V n f' s N ltac:(lra)) as [-> J1]. destruct (V n f' t N ltac:(lra)) as [-> J2].
      destruct (legs_nth g m fs f n f' ST LG N) as (_ & TI & PF & _).
      pose proof (fcourse_incr g m (fs ++ [f]) vlo vhi alo ahi n f' i (s - at_update g n) (t - at_update g n) ST TI PF W N Hi
        ltac:(lra) ltac:(lra) ltac:(lra)) as X.
      replace (t - at_update g n - (s - at_update g n)) with (t - s) in X by ring. exact X.
  - assert (V : forall n f' q t, nth_error (fs ++ [f]) n = Some f' -> (q < count g m f')%nat ->
       INR q * h <= t - at_update g n <= INR (S q) * h ->
       exists c, 0 <= c <= 1 /\ c = (t - at_update g n - INR q * h) / h /\
       v i t = (1 - c) * fcourse f' 1 i (INR q * h) + c * fcourse f' 1 i (INR (S q) * h)).
    { intros n f' q t N Q I. rewrite S_INR in I. destruct (M n f' i N Hi) as [_ X]. fold h in X.
      exists ((t - at_update g n - INR q * h) / h). split; [|split; [reflexivity|]].
      - split; apply (Rmult_le_reg_r h); try exact HP; unfold Rdiv; rewrite Rmult_assoc, Rinv_l by lra; lra.
      - specialize (X q (t - at_update g n - INR q * h) Q ltac:(lra)).
        replace (at_update g n + INR q * h + (t - at_update g n - INR q * h)) with t in X by ring. exact X. }
    assert (QT : forall n f' q, nth_error (fs ++ [f]) n = Some f' -> (q <= count g m f')%nat -> 0 <= INR q * h <= Q2R (motion f')).
    { intros n f' q N Q. destruct (legs_nth g m fs f n f' ST LG N) as (_ & TI & _).
      destruct (count_time g m f' ST TI) as (_ & _ & Y). pose proof (count_sample g m f' q ST TI Q). fold h in H, Y. lra. }
    split.
    + intros t I. destruct (time_leg g m fs f t ST LG I) as (n & f' & N & In).
      destruct (legs_nth g m fs f n f' ST LG N) as (_ & TI & _). destruct (count_ok g m f' ST TI) as ((C1 & _) & _).
      destruct (piece_of h (count g m f') (t - at_update g n) HP C1 In) as (q & Hq & Iq).
      destruct (V n f' q t N Hq Iq) as (c & C & _ & E). rewrite E.
      destruct (W n f' i (INR q * h) N Hi (QT n f' q N ltac:(lia))) as [W1 _].
      destruct (W n f' i (INR (S q) * h) N Hi (QT n f' (S q) N ltac:(lia))) as [W2 _].
      set (x := fcourse f' 1 i (INR q * h)) in *. set (y := fcourse f' 1 i (INR (S q) * h)) in *. split; nra.
    + apply (incr_legs g m fs f (v i) _ _ ST LG). intros n f' s t N A B C. fold h in C.
      destruct (legs_nth g m fs f n f' ST LG N) as (_ & TI & PF & _).
      pose proof (incr_glue (fun u => v i (at_update g n + u)) (alo i) (ahi i) h (count g m f') ltac:(lra)) as K.
      specialize (K ltac:(
        intros q s' t' Hq A' B' C';
        destruct (V n f' q (at_update g n + t') N Hq ltac:(lra)) as (c & C1 & C2 & E);
        destruct (V n f' q (at_update g n + s') N Hq ltac:(lra)) as (e & E1 & E2 & E');
        cbv beta; rewrite E, E';
        pose proof (fcourse_incr g m (fs ++ [f]) vlo vhi alo ahi n f' i (INR q * h) (INR (S q) * h) ST TI PF W N Hi
          (proj1 (QT n f' q N ltac:(lia))) ltac:(rewrite S_INR; lra) (proj2 (QT n f' (S q) N ltac:(lia)))) as X;
        rewrite S_INR in X at 1 4; replace ((INR q + 1) * h - INR q * h) with h in X by ring;
        set (x := fcourse f' 1 i (INR q * h)) in *; set (y := fcourse f' 1 i (INR (S q) * h)) in *;
        replace ((1 - c) * x + c * y - ((1 - e) * x + e * y)) with ((c - e) * (y - x)) by ring;
        assert (CE : c - e = (t' - s') / h) by (rewrite C2, E2; field; lra);
        assert (CP : 0 <= c - e) by (rewrite CE; apply Rmult_le_pos; [lra|left; apply Rinv_0_lt_compat; exact HP]);
        assert (TS : t' - s' = (c - e) * h) by (rewrite CE; field; lra);
        rewrite TS; split; nra) (s - at_update g n) (t - at_update g n) ltac:(lra) ltac:(lra) ltac:(lra)).
      cbv beta in K. replace (at_update g n + (t - at_update g n)) with t in K by ring.
      replace (at_update g n + (s - at_update g n)) with s in K by ring.
      replace (t - at_update g n - (s - at_update g n)) with (t - s) in K by ring. exact K.
Qed.

(** distance between the vehicle and its plan *)
Theorem free_deviation : forall g m fs f p v vlo vhi alo ahi n f' i t, paced g m -> legs g fs f ->
  f_within g (fs ++ [f]) vlo vhi alo ahi ->
  (forall i t, (i < dim g)%nat -> 0 <= t <= end_time g m fs f -> deriv_in 0 (end_time g m fs f) (p i) t (v i t)) ->
  f_interpolates g m (fs ++ [f]) p v -> nth_error (fs ++ [f]) n = Some f' -> (i < dim g)%nat ->
  0 <= t <= INR (count g m f') * Q2R (ts g) ->
  Rabs (p i (at_update g n + t) - fcourse f' 0 i t) <= (ahi i - alo i) * Q2R (ts g) / 4 * t /\
  Rabs (v i (at_update g n + t) - fcourse f' 1 i t) <= (ahi i - alo i) * Q2R (ts g) / 4.
Proof.
  intros g m fs f p v vlo vhi alo ahi n f' i t ST LG W D M N Hi It.
  pose proof (Q2R_pos _ (proj1 ST)) as HP.
  destruct (legs_nth g m fs f n f' ST LG N) as (_ & TI & PF & _).
  destruct (count_ok g m f' ST TI) as ((C1 & _) & _). destruct (count_time g m f' ST TI) as (U0 & _ & UT).
  pose proof (timely_pos g m f' ST TI) as HT.
  assert (LH : alo i <= ahi i) by (destruct (W n f' i 0 N Hi ltac:(lra)) as [_ X]; lra).
  destruct (M n f' i N Hi) as [S0 X]. set (h := Q2R (ts g)) in *. set (U := INR (count g m f') * h) in *.
  pose proof (leg_end g m fs f n f' ST LG N) as NU. fold h U in NU.
  assert (N0 : 0 <= at_update g n) by (apply Rmult_le_pos; [apply pos_INR|left; apply Q2R_pos, (paced_upd g m ST)]).
  set (e := (ahi i - alo i) * h / 4).
  assert (DB : forall s, 0 <= s <= U -> - e <= v i (at_update g n + s) - fcourse f' 1 i s <= e).
  { intros s Is. destruct (piece_of h (count g m f') s HP C1 Is) as (q & Hq & Iq). rewrite S_INR in Iq.
    specialize (X q (s - INR q * h) Hq ltac:(lra)).
    replace (at_update g n + INR q * h + (s - INR q * h)) with (at_update g n + s) in X by ring. rewrite X.
    assert (QU : INR (S q) * h <= U) by (apply Rmult_le_compat_r; [lra|apply le_INR; lia]).
    rewrite S_INR in QU. pose proof (Rmult_le_pos (INR q) h (pos_INR q) ltac:(lra)) as Q0.
    apply interp_err; try lra.
    - apply (fcourse_incr g m (fs ++ [f]) vlo vhi alo ahi n f' i (INR q * h) s ST TI PF W N Hi); lra.
    - pose proof (fcourse_incr g m (fs ++ [f]) vlo vhi alo ahi n f' i s (INR (S q) * h) ST TI PF W N Hi) as Y.
      rewrite S_INR in *. replace (h - (s - INR q * h)) with ((INR q + 1) * h - s) by ring. apply Y; lra. }
  split; [|apply Rabs_le, DB; exact It].
  assert (B := deriv_bounds 0 U (fun s => p i (at_update g n + s) - fcourse f' 0 i s)
    (fun s => v i (at_update g n + s) - fcourse f' 1 i s) (- e) e).
  assert (DD : forall s, 0 <= s <= U -> deriv_in 0 U (fun s => p i (at_update g n + s) - fcourse f' 0 i s) s
     (v i (at_update g n + s) - fcourse f' 1 i s)).
  { intros s Is. apply (deriv_minus 0 U s Is).
    - assert (Q : deriv_in (0 + - at_update g n) (end_time g m fs f + - at_update g n)
          (fun u => p i (u - - at_update g n)) s (v i (at_update g n + s))).
      { apply deriv_shift. replace (s - - at_update g n) with (at_update g n + s) by ring. apply D; [exact Hi|lra]. }
      apply (deriv_ext _ _ (fun u => p i (u - - at_update g n))); [exact Is|intros u _; f_equal; ring|].
      apply (deriv_sub (0 + - at_update g n) (end_time g m fs f + - at_update g n)); [lra|lra|exact Q].
    - apply (fcourse_deriv g); auto. }
  specialize (B DD DB 0 t ltac:(lra) ltac:(lra) ltac:(lra)). cbv beta in B.
  rewrite Rplus_0_r, S0 in B. apply Rabs_le. fold e. lra.
Qed.

Lemma f_accepted_limits : forall g m nd tol b goal vchk rv sd w f, paced g m -> 0 <= tol -> dim g = 2%nat -> 0 < Q2R (motion f) -> proper g f ->
  f_accepted g nd tol (holonomic_constraints "norm_inf" b) goal vchk rv sd w f ->
  let L := holonomic_limits b in
  forall i t, (i < dim g)%nat -> 0 <= t <= Q2R (motion f) ->
    two (vxmin L) (vymin L) i <= fcourse f 1 i t <= two (vxmax L) (vymax L) i /\
    two (axmin L) (aymin L) i <= fcourse f 2 i t <= two (axmax L) (aymax L) i.
Proof.
  intros g m nd tol b goal vchk rv sd w f ST Tt D HT [PA _] ((limits & E & SL) & _) L i t Hi It.
  set (T := Q2R (motion f)) in *.
  pose proof (unit_time t T HT ltac:(lra)) as Q.
  destruct (holonomic_inf_ok b T (jets (own (body f)) (t / T)) HT) as (cs & E' & K). rewrite E in E'. injection E' as E'. subst cs.
  cbv zeta in K. destruct K as [K _].
  assert (ON : forall i o, (i < 2)%nat -> (o <= 3)%nat -> on_unit (own (body f) i) /\ (o <= degree (sbasis (own (body f) i)))%nat).
  { intros j o Hj Ho. rewrite own_path by lia. destruct (PA j ltac:(lia)) as (A & B & _). split; [exact A|rewrite B; exact Ho]. }
  assert (H := K ltac:(
    apply (lift_plain tol); auto; intros c Hc;
    unfold holonomic_constraints in E; cbn in E; injection E as <-; unfold holonomic_inf in Hc;
    repeat (destruct Hc as [<-|Hc]; [cbn [le0 cexpr fits mentions plain]; split; [split; [apply ON; lia|exact Logic.I]|split; reflexivity]|]); destruct Hc)).
  clear K. unfold phys, jets in H. rewrite !own_path in H by lia. unfold fcourse. fold T. fold L in H.
  assert (C : i = 0%nat \/ i = 1%nat) by lia. destruct C as [-> | ->]; unfold two; cbn [Nat.eqb]; lra.
Qed.
