(** Shifting the first knots and back (C104, C105), extrapolation (C106),
    shifting over a knot (C107). *)
From Coq Require Import Reals List Arith Lra Lia.
From Verif Require Import Spline_Model Spline_Spec Splop_Model Splop_Spec Shift_Model Shift_Spec
  Shift_Proofs Shift_Proofs2 Shift_Proofs5 Shift_Proofs8 Shift_Proofs9.
Import ListNotations.
Local Open Scope R_scope.

(* knots 0 0 0 1 2 3 3 3 *)
Definition even3 : bbasis := equidistant 2 3 1.
Lemma even3_wf : well_formed even3. Proof. apply eq_wf; [lra|lia]. Qed.
Lemma even3_first : in_first even3 (1 / 2).
Proof. unfold in_first, even3, equidistant. cbn [degree knots repeat app seq map nth Nat.add]. simpl INR. lra. Qed.
Lemma even3_in : forall x, 0 <= x <= 3 -> in_domain even3 x.
Proof. intros x Hx. unfold in_domain, even3, equidistant, dom_left, dom_right. cbn [degree knots repeat app seq map nth Nat.add Nat.sub length]. simpl INR. lra. Qed.
Lemma even3_supports : supports_positive even3.
Proof.
  intros i Hi. unfold even3, equidistant in *. cbn [degree knots repeat app seq map length Nat.add] in *.
  repeat (destruct i as [|i]; [cbn [nth Nat.add]; simpl INR; lra|]). lia.
Qed.

(* shift_knot1_fwd: the same function on the rest of the domain *)
Theorem C104_same : forall b c t, well_formed b -> in_first b t -> length c = blen b ->
  forall x, in_domain b x -> t <= x ->
  call (mkS (first_moved b t) (shift_knot1_fwd c b t)) x = call (mkS b c) x.
Proof. exact fwd_call. Qed.
Example C104_same_ex : call (mkS (first_moved even3 (1 / 2)) (shift_knot1_fwd [1; 4; 2; 0; 3] even3 (1 / 2))) 2
  = call (mkS even3 [1; 4; 2; 0; 3]) 2.
Proof. apply C104_same; [apply even3_wf|apply even3_first|reflexivity|apply even3_in; lra|lra]. Qed.
Print Assumptions C104_same.

(* as many coefficients as before *)
Theorem C104_length : forall c b t, length (shift_knot1_fwd c b t) = blen b.
Proof. exact fwd_length. Qed.
Example C104_length_ex : length (shift_knot1_fwd [1; 4; 2; 0; 3] even3 (1 / 2)) = 5%nat.
Proof. apply C104_length. Qed.
Print Assumptions C104_length.

(* shift_knot1_bwd after shift_knot1_fwd *)
Theorem C105_after : forall b t c c2, well_formed b -> in_first b t -> length c = blen b ->
  shift_knot1_bwd (shift_knot1_fwd c b t) b t = Some c2 -> c2 = c.
Proof. exact bwd_fwd. Qed.
Example C105_after_ex : exists c2, shift_knot1_bwd (shift_knot1_fwd [1; 4; 2; 0; 3] even3 (1 / 2)) even3 (1 / 2) = Some c2
  /\ c2 = [1; 4; 2; 0; 3].
Proof.
  destruct (proj2 (bwd_works even3 (1 / 2) (shift_knot1_fwd [1; 4; 2; 0; 3] even3 (1 / 2)) even3_wf)) as [c2 [E _]]; [right; cbn; lia|].
  exists c2. split; [exact E|]. apply (C105_after even3 (1 / 2)); [apply even3_wf|apply even3_first|reflexivity|exact E]. Qed.
Print Assumptions C105_after.

(* and before it *)
Theorem C105_before : forall b t c c2, well_formed b -> in_first b t -> length c = blen b ->
  shift_knot1_bwd c b t = Some c2 -> shift_knot1_fwd c2 b t = c.
Proof. exact fwd_bwd. Qed.
Example C105_before_ex : exists c2, shift_knot1_bwd [1; 4; 2; 0; 3] even3 (1 / 2) = Some c2
  /\ shift_knot1_fwd c2 even3 (1 / 2) = [1; 4; 2; 0; 3].
Proof.
  destruct (proj2 (bwd_works even3 (1 / 2) [1; 4; 2; 0; 3] even3_wf)) as [c2 [E _]]; [right; cbn; lia|].
  exists c2. split; [exact E|]. apply C105_before; [apply even3_wf|apply even3_first|reflexivity|exact E]. Qed.
Print Assumptions C105_before.

(* shift_knot1_bwd raises exactly without inner knots (degree 1 or more) *)
Theorem C105_works : forall b t c, well_formed b ->
  (exists c2, shift_knot1_bwd c b t = Some c2 /\ length c2 = blen b) <->
  (degree b = 0 \/ 2 * degree b + 2 < length (knots b))%nat.
Proof. exact bwd_works. Qed.
Example C105_works_ex : ~ exists c2, shift_knot1_bwd [1; 4; 2] (mkB [0; 0; 0; 1; 1; 1] 2) (1 / 2) = Some c2 /\ length c2 = 3%nat.
Proof. intros H. apply (C105_works (mkB [0; 0; 0; 1; 1; 1] 2) (1 / 2) [1; 4; 2]) in H; [cbn in H; lia|].
  split; [|cbn; lia]. apply nondec_steps. cbn [knots length]. intros i Hi.
  repeat (destruct i as [|i]; [cbn [nth]; lra|]). lia. Qed.
Print Assumptions C105_works.

(* shift_knot1_bwd: the same function where both are defined *)
Theorem C105_same : forall b t c c2 x, well_formed b -> in_first b t -> length c = blen b ->
  shift_knot1_bwd c b t = Some c2 -> in_domain b x -> t <= x ->
  call (mkS b c2) x = call (mkS (first_moved b t) c) x.
Proof. exact bwd_call. Qed.
Example C105_same_ex : exists c2, shift_knot1_bwd [1; 4; 2; 0; 3] even3 (1 / 2) = Some c2 /\
  call (mkS even3 c2) 2 = call (mkS (first_moved even3 (1 / 2)) [1; 4; 2; 0; 3]) 2.
Proof.
  destruct (proj2 (bwd_works even3 (1 / 2) [1; 4; 2; 0; 3] even3_wf)) as [c2 [E _]]; [right; cbn; lia|].
  exists c2. split; [exact E|]. apply C105_same; [apply even3_wf|apply even3_first|reflexivity|exact E|apply even3_in; lra|lra]. Qed.
Print Assumptions C105_same.

(* extrapolate: the old spline, and its last polynomial on the added interval *)
Theorem C106_close : forall tol b e c c2, 0 <= tol -> well_formed b -> clamped b -> supports_positive b ->
  0 < e -> length c = blen b -> extrapolate tol c e b = Some c2 ->
  exists m, last_mult b m /\ length c2 = (blen b + m)%nat /\
  (forall i, (i < blen b + m - (degree b + 1))%nat -> nth i c2 0 = nth i c 0) /\
  (forall x, dom_left b <= x <= dom_right b ->
     Rabs (call (mkS (extended b m e) c2) x - call (mkS b c) x) <= tol * size_of c) /\
  (exists a, length a = (degree b + 1)%nat /\
     (forall x, last_inner b < x <= dom_right b -> call (mkS b c) x = poly a x) /\
     (forall x, last_inner b < x <= dom_right b + e ->
        Rabs (call (mkS (extended b m e) c2) x - poly a x) <= tol * size_of c)).
Proof. exact extrapolate_close. Qed.
Example C106_close_ex : exists c2, extrapolate (1 / 10000000000) [1; 4; 2; 0; 3] 2 even3 = Some c2 /\ length c2 = 6%nat /\
  Rabs (call (mkS (extended even3 1 2) c2) 1 - call (mkS even3 [1; 4; 2; 0; 3]) 1) <= 1 / 10000000000 * 10.
Proof.
  destruct (extrapolate_equidistant_works 2 3 1 ltac:(lra) ltac:(lia) ltac:(lia) ltac:(lia) (1 / 10000000000) 2 [1; 4; 2; 0; 3] ltac:(lra)) as [c2 E].
  exists c2. split; [exact E|].
  destruct (C106_close (1 / 10000000000) even3 2 [1; 4; 2; 0; 3] c2 ltac:(lra) even3_wf (eq_clamped 2 3 1 ltac:(lra) ltac:(lia))
    even3_supports ltac:(lra) eq_refl E) as [m [M [L [_ [C _]]]]].
  assert (m = 1%nat).
  { pose proof (proj2 (inner_mult_iff even3 m even3_wf) M) as P. pose proof (proj2 (inner_mult_iff even3 1 even3_wf) (eq_mult 2 3 1 ltac:(lra) ltac:(lia))) as Q.
    rewrite P in Q. injection Q as ->. reflexivity. }
  subst m. split; [exact L|]. eapply Rle_trans; [apply C|].
  - unfold even3, equidistant, dom_left, dom_right. cbn [degree knots repeat app seq map nth Nat.add Nat.sub length]. simpl INR. lra.
  - unfold size_of. cbn. rewrite !Rabs_pos_eq by lra. lra. Qed.
Print Assumptions C106_close.

(* it does not raise with one single last inner knot and a last evaluation point beyond it *)
Theorem C106_works : forall tol b e c, well_formed b -> clamped b -> 0 < e -> last_mult b 1 ->
  (1 <= degree b)%nat -> last_inner b <= nth (blen b - degree b) (greville b) 0 ->
  exists c2, extrapolate tol c e b = Some c2.
Proof. exact extrapolate_works. Qed.
Example C106_works_ex : exists c2, extrapolate 0 [1; 4; 2; 0; 3] 2 even3 = Some c2.
Proof. apply C106_works; [apply even3_wf|apply eq_clamped; [lra|lia]|lra|apply eq_mult; [lra|lia]|cbn; lia|apply (eq_greville 2 3 1); try lia; lra]. Qed.
Print Assumptions C106_works.

(* in particular with equidistant knots and degrees 1, 2 and 3 *)
Theorem C106_equidistant : forall d K h, 0 < h -> (2 <= K)%nat -> (1 <= d <= 3)%nat -> (d <= K)%nat ->
  forall tol e c, 0 < e -> exists c2, extrapolate tol c e (equidistant d K h) = Some c2.
Proof. exact extrapolate_equidistant_works. Qed.
Example C106_equidistant_ex : exists c2, extrapolate 0 [1; 4; 2; 0; 3; 1; 1] (1 / 2) (equidistant 3 4 (1 / 2)) = Some c2.
Proof. apply C106_equidistant; try lia; lra. Qed.
Print Assumptions C106_equidistant.

(* without inner knots both raise *)
Theorem C106_raises : forall tol b e c, well_formed b -> clamped b ->
  (length (knots b) = 2 * degree b + 2)%nat ->
  extrapolate tol c e b = None /\ shift_over_knot tol c b = None.
Proof. exact no_inner_raises. Qed.
Example C106_raises_ex : extrapolate 0 [1; 2] 1 (mkB [0; 0; 1; 1] 1) = None /\ shift_over_knot 0 [1; 2] (mkB [0; 0; 1; 1] 1) = None.
Proof. apply C106_raises; [| |reflexivity].
  - split; [|cbn; lia]. apply nondec_steps. cbn [knots length]. intros i Hi.
    repeat (destruct i as [|i]; [cbn [nth]; lra|]). lia.
  - unfold clamped. cbn [knots degree length nth Nat.sub Nat.add]. repeat split; lra. Qed.
Print Assumptions C106_raises.

(* shift_over_knot: the old spline from its second knot on, then its last polynomial *)
Theorem C107_close : forall tol b c c2, 0 <= tol -> well_formed b -> clamped b ->
  nth 0 (knots b) 0 = 0 -> (1 <= degree b)%nat ->
  nth (degree b + 1) (knots b) 0 < nth (degree b + 2) (knots b) 0 -> last_mult b 1 ->
  (2 * degree b <= blen b)%nat -> length c = blen b ->
  shift_over_knot tol c b = Some c2 ->
  length c2 = blen b /\
  (forall x, nth (degree b + 1) (knots b) 0 <= x <= dom_right b ->
     Rabs (call (mkS (advanced b) c2) x - call (mkS b c) x) <= tol * size_of c) /\
  (exists a, length a = (degree b + 1)%nat /\
     (forall x, last_inner b < x <= dom_right b -> call (mkS b c) x = poly a x) /\
     (forall x, last_inner b < x <= dom_right b + (dom_right b - last_inner b) ->
        Rabs (call (mkS (advanced b) c2) x - poly a x) <= tol * size_of c)).
Proof. exact shift_over_knot_close. Qed.
Example C107_close_ex : exists c2, shift_over_knot 0 [1; 4; 2; 0; 3] even3 = Some c2 /\
  call (mkS (advanced even3) c2) 2 = call (mkS even3 [1; 4; 2; 0; 3]) 2.
Proof.
  destruct (shift_equidistant_works 2 3 1 ltac:(lra) ltac:(lia) ltac:(lia) ltac:(lia) 0 [1; 4; 2; 0; 3]) as [c2 E].
  exists c2. split; [exact E|].
  destruct (C107_close 0 even3 [1; 4; 2; 0; 3] c2 ltac:(lra) even3_wf (eq_clamped 2 3 1 ltac:(lra) ltac:(lia)) eq_refl ltac:(cbn; lia)
    ltac:(unfold even3, equidistant; cbn [degree knots repeat app seq map nth Nat.add]; simpl INR; lra)
    (eq_mult 2 3 1 ltac:(lra) ltac:(lia)) ltac:(cbn; lia) eq_refl E) as [_ [C _]].
  specialize (C 2). rewrite Rmult_0_l in C.
  apply Rminus_diag_uniq. destruct (Req_dec (call (mkS (advanced even3) c2) 2 - call (mkS even3 [1; 4; 2; 0; 3]) 2) 0) as [|N]; [assumption|].
  pose proof (Rabs_pos_lt _ N). exfalso. apply (Rlt_not_le _ _ H). apply C.
  unfold even3, equidistant, dom_right. cbn [degree knots repeat app seq map nth Nat.add Nat.sub length]. simpl INR. lra. Qed.
Print Assumptions C107_close.

(* with equidistant knots that start at 0: the spline one knot interval later, on the same basis *)
Theorem C107_equidistant : forall d K h, 0 < h -> (2 <= K)%nat -> (1 <= d)%nat -> (d <= K)%nat ->
  forall tol c c2, 0 <= tol -> length c = (K + d)%nat ->
  shift_over_knot tol c (equidistant d K h) = Some c2 ->
  length c2 = (K + d)%nat /\
  (forall x, 0 <= x <= INR (K - 1) * h ->
     Rabs (call (mkS (equidistant d K h) c2) x - call (mkS (equidistant d K h) c) (x + h)) <= tol * size_of c) /\
  (exists a, length a = (d + 1)%nat /\
     (forall x, INR (K - 1) * h < x <= INR K * h -> call (mkS (equidistant d K h) c) x = poly a x) /\
     (forall x, INR (K - 1) * h < x <= INR K * h ->
        Rabs (call (mkS (equidistant d K h) c2) x - poly a (x + h)) <= tol * size_of c)).
Proof. exact shift_equidistant. Qed.
Example C107_equidistant_ex : exists c2, shift_over_knot 0 [1; 4; 2; 0; 3] even3 = Some c2 /\
  call (mkS even3 c2) 1 = call (mkS even3 [1; 4; 2; 0; 3]) (1 + 1).
Proof.
  destruct (shift_equidistant_works 2 3 1 ltac:(lra) ltac:(lia) ltac:(lia) ltac:(lia) 0 [1; 4; 2; 0; 3]) as [c2 E].
  exists c2. split; [exact E|].
  destruct (C107_equidistant 2 3 1 ltac:(lra) ltac:(lia) ltac:(lia) ltac:(lia) 0 [1; 4; 2; 0; 3] c2 ltac:(lra) eq_refl E) as [_ [C _]].
  specialize (C 1). rewrite Rmult_0_l in C.
  apply Rminus_diag_uniq. destruct (Req_dec (call (mkS even3 c2) 1 - call (mkS even3 [1; 4; 2; 0; 3]) (1 + 1)) 0) as [|N]; [assumption|].
  pose proof (Rabs_pos_lt _ N). exfalso. apply (Rlt_not_le _ _ H). apply C. simpl INR. lra. Qed.
Print Assumptions C107_equidistant.

(* and it does not raise for degrees 1, 2 and 3 *)
Theorem C107_works : forall d K h, 0 < h -> (2 <= K)%nat -> (1 <= d <= 3)%nat -> (d <= K)%nat ->
  forall tol c, exists c2, shift_over_knot tol c (equidistant d K h) = Some c2.
Proof. exact shift_equidistant_works. Qed.
Example C107_works_ex : exists c2, shift_over_knot 0 [1; 4; 2; 0; 3; 1; 1] (equidistant 3 4 (1 / 2)) = Some c2.
Proof. apply C107_works; try lia; lra. Qed.
Print Assumptions C107_works.

(* knots that do not start at 0 *)
Theorem C107_late_refuted : exists b c c2 x, well_formed b /\ clamped b /\ last_mult b 1 /\ (1 <= degree b)%nat /\
  nth (degree b + 1) (knots b) 0 < nth (degree b + 2) (knots b) 0 /\ (2 * degree b <= blen b)%nat /\
  length c = blen b /\ shift_over_knot 0 c b = Some c2 /\
  nth (degree b + 1) (knots b) 0 <= x <= dom_right b /\
  call (mkS (advanced b) c2) x <> call (mkS b c) x.
Proof. exact late_start_refuted. Qed.
Print Assumptions C107_late_refuted.

(* repeated inner knots *)
Theorem C107_repeated_refuted : exists b c c2 x, well_formed b /\ clamped b /\ nth 0 (knots b) 0 = 0 /\ (1 <= degree b)%nat /\
  last_mult b 2 /\ (2 * degree b <= blen b)%nat /\ knots b = [0; 0; 0; 1; 1; 2; 2; 2] /\
  length c = blen b /\ shift_over_knot 0 c b = Some c2 /\
  0 <= x <= 1 /\ call (mkS b c2) x <> call (mkS b c) (x + 1).
Proof. exact repeated_refuted. Qed.
Print Assumptions C107_repeated_refuted.

(* fewer knot intervals than the degree *)
Theorem C107_short_refuted : exists b c c2 x, well_formed b /\ clamped b /\ nth 0 (knots b) 0 = 0 /\ (1 <= degree b)%nat /\
  nth (degree b + 1) (knots b) 0 < nth (degree b + 2) (knots b) 0 /\ last_mult b 1 /\
  length c = blen b /\ shift_over_knot 0 c b = Some c2 /\
  nth (degree b + 1) (knots b) 0 <= x <= dom_right b /\
  call (mkS (advanced b) c2) x <> call (mkS b c) x.
Proof. exact short_refuted. Qed.
Print Assumptions C107_short_refuted.
