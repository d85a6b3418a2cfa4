(** Where shift_over_knot does not shift: knots that do not start at 0,
    repeated inner knots, fewer knot intervals than the degree. *)
From Coq Require Import Reals Lra Lia List Permutation Arith Bool.
From Verif Require Import Blossom Spline_Model Spline_Spec Spline_Proofs Spline_Proofs2 Spline_Proofs3 Spline_Proofs5 Span_Proofs
  Splop_Model Splop_Spec Splop_Proofs Splop_Proofs2 Splop_Proofs4 Shift_Model Shift_Spec Shift_Proofs Shift_Proofs2 Shift_Proofs3
  Shift_Proofs4 Shift_Proofs5 Shift_Proofs6 Shift_Proofs7 Shift_Proofs8.
Import ListNotations.
Local Open Scope R_scope.

Ltac piece J :=
  match goal with |- context [call (mkS ?b ?y) ?x] =>
    rewrite (call_diag (mkS b y) x J);
    [ unfold diag; cbn [sbasis coeffs degree knots Nat.sub shn repeat bl length]; unfold dbstep, sh, cf, kn;
      cbn [sbasis coeffs degree knots nth Nat.add]
    | | reflexivity | unfold active, kn; cbn [sbasis coeffs degree knots nth Nat.add length]; repeat split; try lia; try lra ] end.

Lemma nondec_steps : forall k, (forall i, (S i < length k)%nat -> nth i k 0 <= nth (S i) k 0) -> nondecreasing k.
Proof.
  intros k H i j Hij Hj. induction Hij as [|j Hij IH]; [lra|].
  eapply Rle_trans; [apply IH; lia|]. apply H. lia.
Qed.
Ltac knots_ok := apply nondec_steps; cbn [knots sbasis length]; intros i Hi;
  repeat (destruct i as [|i]; [cbn [nth]; lra|]); lia.
Ltac wf_ok := split; [knots_ok|cbn [knots sbasis degree length]; lia].
Ltac mult_ok := repeat split;
  [lia|cbn; lia|let i := fresh in let H := fresh in
     intros i H; repeat (destruct i as [|i]; [reflexivity|]); lia|
   unfold last_inner; cbn [knots degree length nth Nat.sub]; lra].

(** ** knots that start at 1 *)
Definition late : bbasis := mkB [1; 1; 1; 2; 3; 4; 4; 4] 2.
Lemma late_wf : well_formed late. Proof. unfold late. wf_ok. Qed.
Lemma late_clamped : clamped late.
Proof. unfold clamped, late. cbn [knots degree length nth Nat.sub Nat.add]. repeat split; lra. Qed.
Lemma late_mult : last_mult late 1. Proof. unfold late. mult_ok. Qed.
Lemma late_greville : last_inner late <= nth (blen late - degree late) (greville late) 0.
Proof.
  unfold last_inner, greville, late, blen, kn. cbn [knots degree length Nat.sub Nat.add seq map nth fold_left]. 
  unfold kn. cbn [knots nth]. simpl INR. lra.
Qed.
Lemma late_first : forall c2, shift_over_knot 0 [0; 0; 2; 2; 2] late = Some c2 -> nth 0 c2 0 = 0.
Proof.
  intros c2 H. unfold shift_over_knot, shiftoverknot_T in H.
  rewrite (proj2 (inner_mult_iff late 1 late_wf) late_mult) in H.
  destruct (extrapolate_T _ _ _) as [[r TE]|]; [|discriminate].
  injection H as <-. change (blen late) with 5%nat. unfold mdot, rangesum.
  cbn [seq map nth fold_left degree late Nat.sub Nat.add Nat.leb Nat.ltb Nat.eqb andb].
  unfold shift_stages, mmul, rangesum, shift_stage, eye, kn.
  cbn [seq map nth fold_left degree late Nat.sub Nat.add Nat.leb Nat.ltb Nat.eqb andb knots].
  field.
Qed.
Lemma late_advanced : advanced late = mkB [2; 2; 2; 3; 4; 4 + (4 - 3); 4 + (4 - 3); 4 + (4 - 3)] 2.
Proof. reflexivity. Qed.
Theorem late_start_refuted : exists b c c2 x, well_formed b /\ clamped b /\ last_mult b 1 /\ (1 <= degree b)%nat /\
  nth (degree b + 1) (knots b) 0 < nth (degree b + 2) (knots b) 0 /\ (2 * degree b <= blen b)%nat /\
  length c = blen b /\ shift_over_knot 0 c b = Some c2 /\
  nth (degree b + 1) (knots b) 0 <= x <= dom_right b /\
  call (mkS (advanced b) c2) x <> call (mkS b c) x.
Proof.
  destruct (shift_over_knot_works 0 late [0; 0; 2; 2; 2] late_wf late_clamped late_mult ltac:(cbn; lia) late_greville) as [c2 E].
  exists late, [0; 0; 2; 2; 2], c2, 2. pose proof (late_first c2 E) as F.
  assert (L : length c2 = 5%nat).
  { unfold shift_over_knot in E. destruct (shiftoverknot_T 0 late); [|discriminate]. injection E as <-. reflexivity. }
  split; [exact late_wf|]. split; [exact late_clamped|]. split; [exact late_mult|]. split; [cbn; lia|].
  split; [unfold late; cbn [knots degree nth Nat.add]; lra|]. split; [cbn; lia|]. split; [reflexivity|]. split; [exact E|].
  split; [unfold late, dom_right, blen; cbn [knots degree nth Nat.add Nat.sub length]; lra|].
  assert (O : call (mkS late [0; 0; 2; 2; 2]) 2 = 1) by (unfold late; piece 2%nat; [field|knots_ok]).
  rewrite late_advanced, O.
  destruct c2 as [|c0 c2]; [discriminate|]. cbn [nth] in F. subst c0.
  set (B := mkB [2; 2; 2; 3; 4; 4 + (4 - 3); 4 + (4 - 3); 4 + (4 - 3)] 2).
  assert (Q : call (mkS B (0 :: c2)) 2 = 0).
  { etransitivity; [exact (call_left_end (mkS B (0 :: c2)) ltac:(unfold B; wf_ok) L eq_refl ltac:(unfold B, dom_left; cbn [sbasis knots degree nth Nat.add]; lra))|reflexivity]. }

  rewrite Q. lra.
Qed.

(** ** a repeated inner knot *)
Definition twice : bbasis := mkB [0; 0; 0; 1; 1; 2; 2; 2] 2.
Lemma twice_wf : well_formed twice. Proof. unfold twice. wf_ok. Qed.
Lemma twice_clamped : clamped twice.
Proof. unfold clamped, twice. cbn [knots degree length nth Nat.sub Nat.add]. repeat split; lra. Qed.
Lemma twice_mult : last_mult twice 2. Proof. unfold twice. mult_ok. Qed.
Lemma twice_extra : extra_basis twice 2 (2 - 1) = mkB [0; 0; 0; 1; 1; 2; 2; 2 + (2 - 1); 2 + (2 - 1); 2 + (2 - 1)] 2.
Proof. reflexivity. Qed.
Lemma twice_point : nth 4 (greville twice) 0 = 2.
Proof. unfold greville, twice, blen. cbn [knots degree length Nat.sub Nat.add seq map nth fold_left].
  unfold kn. cbn [knots nth]. simpl INR. field. Qed.
Lemma twice_value : nth 4 (eval_basis (extra_basis twice 2 (2 - 1)) 2) 0 = 1.
Proof.
  rewrite twice_extra. set (B := mkB _ _).
  assert (Q : call (mkS B [0; 0; 0; 0; 1; 0; 0]) 2 = 1).
  { unfold B. piece 4%nat; [field|knots_ok]. }
  unfold call in Q. cbn [sbasis coeffs] in Q.
  assert (L : length (eval_basis B 2) = 7%nat) by (rewrite eval_basis_length; reflexivity).
  destruct (eval_basis B 2) as [|a0 [|a1 [|a2 [|a3 [|a4 [|a5 [|a6 [|a7 l]]]]]]]]; try discriminate.
  unfold dot in Q. cbn in Q. cbn [nth]. lra.
Qed.
Lemma twice_A : map (extra_A twice 2 (2 - 1)) (seq 0 3) = [[1; 0; 0]; [-2; 2; 0]; [2; -4; 2]].
Proof.
  cbn [seq map]. unfold extra_A. change (degree twice) with 2%nat. change (blen twice) with 5%nat.
  cbn [Nat.sub Nat.add Nat.ltb Nat.leb Nat.eqb seq map]. rewrite twice_point, twice_value, twice_extra.
  unfold diff_stages, mmul, rangesum, diff_stage, eye, kn.
  cbn [seq map nth fold_left degree Nat.sub Nat.add Nat.leb Nat.ltb Nat.eqb andb knots]. simpl INR.
  repeat match goal with |- _ :: _ = _ :: _ => f_equal end; try reflexivity; field.
Qed.
Lemma twice_total : forall tol, exists cols, extra_cols tol twice 2 (2 - 1) = Some cols.
Proof.
  intros tol. unfold extra_cols. apply oall_map_some. intros q _.
  match goal with |- context [gsolve ?n ?r] => destruct (gsolve_total n r) as [x G] end.
  - rewrite map_length, seq_length. reflexivity.
  - intros r I. apply (in_map fst) in I. rewrite map_map in I. cbn [fst] in I.
    change (degree twice + 1)%nat with 3%nat in I. rewrite (map_ext _ (extra_A twice 2 (2 - 1)) ltac:(reflexivity)), twice_A in I.
    destruct I as [<-|[<-|[<-|[]]]]; reflexivity.
  - rewrite map_map. cbn [fst]. change (degree twice + 1)%nat with 3%nat.
    rewrite (map_ext _ (extra_A twice 2 (2 - 1)) ltac:(reflexivity)), twice_A.
    intros y LY KER. destruct y as [|y0 [|y1 [|y2 [|y3 y]]]]; try discriminate.
    pose proof (KER _ (or_introl eq_refl)) as K0. pose proof (KER _ (or_intror (or_introl eq_refl))) as K1.
    pose proof (KER _ (or_intror (or_intror (or_introl eq_refl)))) as K2.
    unfold dot in *. cbn in K0, K1, K2. cbn [repeat]. repeat f_equal; lra.
  - rewrite G. eexists. reflexivity.
Qed.
Definition bump : list R := [0; 0; 1; 0; 0].
Lemma twice_ext : exists TE, extrapolate_T 0 twice (2 - 1) = Some (7%nat, TE).
Proof.
  unfold extrapolate_T. rewrite (proj2 (inner_mult_iff twice 2 twice_wf) twice_mult).
  destruct (twice_total 0) as [cols E]. rewrite E. eexists. reflexivity.
Qed.
Lemma twice_entry : forall TE, extrapolate_T 0 twice (2 - 1) = Some (7%nat, TE) -> TE 4%nat 2%nat = 0.
Proof.
  intros TE E. assert (X : extrapolate 0 bump (2 - 1) twice = Some (mdot 7 5 TE bump)) by (unfold extrapolate; rewrite E; reflexivity).
  pose proof (res_new twice 2 (2 - 1) twice_wf twice_clamped ltac:(lia) ltac:(cbn; lia) ltac:(lra) 0 bump _ ltac:(lra) eq_refl
    (proj2 (inner_mult_iff twice 2 twice_wf) twice_mult) X 4%nat ltac:(cbn; lia)) as H.
  rewrite Rmult_0_l in H. pose proof (Rabs_pos (nth 4 (mdot 7 5 TE bump) 0 - extc twice 2 (2 - 1) (fun i0 => nth i0 bump 0) 4)) as H0.
  assert (Z : nth 4 (mdot 7 5 TE bump) 0 - extc twice 2 (2 - 1) (fun i0 => nth i0 bump 0) 4 = 0).
  { destruct (Req_dec (nth 4 (mdot 7 5 TE bump) 0 - extc twice 2 (2 - 1) (fun i0 => nth i0 bump 0) 4) 0) as [|N]; [assumption|].
    apply Rabs_no_R0 in N. lra. }
  clear H H0. unfold mdot, rangesum, bump in Z. cbn [seq map nth fold_left] in Z.
  unfold extc in Z. rewrite twice_extra in Z. change (degree twice) with 2%nat in Z. change (blen twice) with 5%nat in Z.
  cbn [Nat.add Nat.sub Nat.ltb Nat.leb seq map] in Z. unfold piece in Z. cbn [Nat.sub shn bl length] in Z. unfold dbstep, sh, kn in Z.
  cbn [knots twice nth Nat.add] in Z. field_simplify in Z. lra.
Qed.
Theorem repeated_refuted : exists b c c2 x, well_formed b /\ clamped b /\ nth 0 (knots b) 0 = 0 /\ (1 <= degree b)%nat /\
  last_mult b 2 /\ (2 * degree b <= blen b)%nat /\ knots b = [0; 0; 0; 1; 1; 2; 2; 2] /\
  length c = blen b /\ shift_over_knot 0 c b = Some c2 /\
  0 <= x <= 1 /\ call (mkS b c2) x <> call (mkS b c) (x + 1).
Proof.
  destruct twice_ext as [TE E]. pose proof (twice_entry TE E) as Z.
  destruct (shift_over_knot 0 bump twice) as [c2|] eqn:S.
  - exists twice, bump, c2, (1 / 2).
    split; [exact twice_wf|]. split; [exact twice_clamped|]. split; [reflexivity|]. split; [cbn; lia|].
    split; [exact twice_mult|]. split; [cbn; lia|]. split; [reflexivity|]. split; [reflexivity|]. split; [exact S|].
    split; [lra|]. unfold shift_over_knot, shiftoverknot_T in S.
    rewrite (proj2 (inner_mult_iff twice 2 twice_wf) twice_mult) in S.
    change (last (knots twice) 0 - kn twice (length (knots twice) - degree twice - 2)) with (2 - 1) in S. rewrite E in S.
    injection S as <-. change (blen twice) with 5%nat.
    assert (O : call (mkS twice bump) (1 / 2 + 1) = 1 / 4) by (unfold twice, bump; piece 4%nat; [field|knots_ok]).
    rewrite O. unfold twice. piece 2%nat; [|knots_ok].
    unfold mdot, rangesum, bump.
    cbn [seq map nth fold_left degree twice Nat.sub Nat.add Nat.leb Nat.ltb Nat.eqb andb].
    unfold shift_stages, mmul, rangesum, shift_stage, eye, kn.
    cbn [seq map nth fold_left degree twice Nat.sub Nat.add Nat.leb Nat.ltb Nat.eqb andb knots].
    rewrite Z. intros H. field_simplify in H. lra.
  - exfalso. unfold shift_over_knot, shiftoverknot_T in S.
    rewrite (proj2 (inner_mult_iff twice 2 twice_wf) twice_mult) in S.
    change (last (knots twice) 0 - kn twice (length (knots twice) - degree twice - 2)) with (2 - 1) in S. rewrite E in S. discriminate.
Qed.

(** ** two knot intervals, degree three *)
Definition short : bbasis := mkB [0; 0; 0; 0; 1; 2; 2; 2; 2] 3.
Lemma short_wf : well_formed short. Proof. unfold short. wf_ok. Qed.
Lemma short_clamped : clamped short.
Proof. unfold clamped, short. cbn [knots degree length nth Nat.sub Nat.add]. repeat split; lra. Qed.
Lemma short_mult : last_mult short 1. Proof. unfold short. mult_ok. Qed.
Lemma short_greville : last_inner short <= nth (blen short - degree short) (greville short) 0.
Proof.
  unfold last_inner, greville, short, blen, kn. cbn [knots degree length Nat.sub Nat.add seq map nth fold_left].
  unfold kn. cbn [knots nth]. simpl INR. lra.
Qed.
Lemma short_extra : extra_basis short 1 (2 - 1) = mkB [0; 0; 0; 0; 1; 2; 2 + (2 - 1); 2 + (2 - 1); 2 + (2 - 1); 2 + (2 - 1)] 3.
Proof. reflexivity. Qed.
Definition bump2 : list R := [0; 0; 0; 2; 0].
Lemma short_entry : forall TE i, extrapolate_T 0 short (2 - 1) = Some (6%nat, TE) -> (2 <= i < 6)%nat ->
  TE i 3%nat * 2 = extc short 1 (2 - 1) (fun i0 => nth i0 bump2 0) i.
Proof.
  intros TE i E Hi. assert (X : extrapolate 0 bump2 (2 - 1) short = Some (mdot 6 5 TE bump2)) by (unfold extrapolate; rewrite E; reflexivity).
  pose proof (res_new short 1 (2 - 1) short_wf short_clamped ltac:(lia) ltac:(cbn; lia) ltac:(lra) 0 bump2 _ ltac:(lra) eq_refl
    (proj2 (inner_mult_iff short 1 short_wf) short_mult) X i ltac:(cbn; lia)) as H.
  rewrite Rmult_0_l in H. pose proof (Rabs_pos (nth i (mdot 6 5 TE bump2) 0 - extc short 1 (2 - 1) (fun i0 => nth i0 bump2 0) i)) as H0.
  assert (Z : nth i (mdot 6 5 TE bump2) 0 - extc short 1 (2 - 1) (fun i0 => nth i0 bump2 0) i = 0).
  { destruct (Req_dec (nth i (mdot 6 5 TE bump2) 0 - extc short 1 (2 - 1) (fun i0 => nth i0 bump2 0) i) 0) as [|N]; [assumption|].
    apply Rabs_no_R0 in N. lra. }
  assert (Q : nth i (mdot 6 5 TE bump2) 0 = TE i 3%nat * 2); [|lra].
  unfold mdot, rangesum, bump2. cbn [seq map nth fold_left].
  do 6 (destruct i as [|i]; [cbn [nth]; lra|]). lia.
Qed.
Ltac short_val := unfold extc; rewrite short_extra; change (degree short) with 3%nat; change (blen short) with 5%nat;
  cbn [Nat.add Nat.sub Nat.ltb Nat.leb seq map]; unfold piece; cbn [Nat.sub shn bl length]; unfold dbstep, sh, kn, bump2;
  cbn [knots short nth Nat.add]; field.
Lemma short_e2 : extc short 1 (2 - 1) (fun i0 => nth i0 bump2 0) 2 = 0. Proof. short_val. Qed.
Lemma short_e3 : extc short 1 (2 - 1) (fun i0 => nth i0 bump2 0) 3 = 3. Proof. short_val. Qed.
Lemma short_e4 : extc short 1 (2 - 1) (fun i0 => nth i0 bump2 0) 4 = -7. Proof. short_val. Qed.
Lemma short_advanced : advanced short = mkB [1; 1; 1; 1; 2; 2 + (2 - 1); 2 + (2 - 1); 2 + (2 - 1); 2 + (2 - 1)] 3.
Proof. reflexivity. Qed.
Theorem short_refuted : exists b c c2 x, well_formed b /\ clamped b /\ nth 0 (knots b) 0 = 0 /\ (1 <= degree b)%nat /\
  nth (degree b + 1) (knots b) 0 < nth (degree b + 2) (knots b) 0 /\ last_mult b 1 /\
  length c = blen b /\ shift_over_knot 0 c b = Some c2 /\
  nth (degree b + 1) (knots b) 0 <= x <= dom_right b /\
  call (mkS (advanced b) c2) x <> call (mkS b c) x.
Proof.
  destruct (shift_over_knot_works 0 short bump2 short_wf short_clamped short_mult ltac:(cbn; lia) short_greville) as [c2 S].
  exists short, bump2, c2, (3 / 2).
  split; [exact short_wf|]. split; [exact short_clamped|]. split; [reflexivity|]. split; [cbn; lia|].
  split; [unfold short; cbn [knots degree nth Nat.add]; lra|]. split; [exact short_mult|]. split; [reflexivity|]. split; [exact S|].
  split; [unfold short, dom_right, blen; cbn [knots degree nth Nat.add Nat.sub length]; lra|].
  unfold shift_over_knot, shiftoverknot_T in S.
  rewrite (proj2 (inner_mult_iff short 1 short_wf) short_mult) in S.
  change (last (knots short) 0 - kn short (length (knots short) - degree short - 2)) with (2 - 1) in S.
  destruct (extrapolate_T 0 short (2 - 1)) as [[r TE]|] eqn:E; [|discriminate].
  assert (R6 : r = 6%nat).
  { unfold extrapolate_T in E. rewrite (proj2 (inner_mult_iff short 1 short_wf) short_mult) in E.
    destruct (extra_cols 0 short 1 (2 - 1)); [|discriminate]. injection E as <- _. reflexivity. }
  subst r. pose proof (short_entry TE 2 E ltac:(lia)) as Z2. pose proof (short_entry TE 3 E ltac:(lia)) as Z3.
  pose proof (short_entry TE 4 E ltac:(lia)) as Z4. rewrite short_e2 in Z2. rewrite short_e3 in Z3. rewrite short_e4 in Z4.
  injection S as <-. change (blen short) with 5%nat. rewrite short_advanced.
  assert (O : call (mkS short bump2) (3 / 2) = 19 / 16).
  { unfold short, bump2. piece 4%nat; [field|knots_ok]. }
  rewrite O. piece 3%nat; [|knots_ok].
  unfold mdot, rangesum, bump2.
  cbn [seq map nth fold_left degree short Nat.sub Nat.add Nat.leb Nat.ltb Nat.eqb andb].
  unfold shift_stages, mmul, rangesum, shift_stage, eye, kn.
  cbn [seq map nth fold_left degree short Nat.sub Nat.add Nat.leb Nat.ltb Nat.eqb andb knots].
  replace (TE 2%nat 3%nat) with 0 by lra. replace (TE 3%nat 3%nat) with (3 / 2) by lra. replace (TE 4%nat 3%nat) with (- 7 / 2) by lra.
  intros H. field_simplify in H. lra.
Qed.
