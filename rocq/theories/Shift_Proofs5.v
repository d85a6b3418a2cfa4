(** extrapolate: the new spline is the old one, continued by its last piece. *)
From Coq Require Import Reals Lra Lia List Permutation Arith Bool.
From Verif Require Import Blossom Spline_Model Spline_Spec Spline_Proofs Spline_Proofs2 Spline_Proofs5 Span_Proofs
  Splop_Model Splop_Spec Splop_Proofs Splop_Proofs2 Shift_Model Shift_Spec Shift_Proofs Shift_Proofs2 Shift_Proofs3
  Shift_Proofs4.
Import ListNotations.
Local Open Scope R_scope.

Definition unitc (b : bbasis) (q : nat) : nat -> R :=
  fun l => if (l =? blen b - (degree b + 1) + q)%nat then 1 else 0.

Lemma rsum_abs : forall n f, Rabs (rsum n f) <= rsum n (fun i => Rabs (f i)).
Proof.
  induction n as [|n IH]; intros f; simpl; [rewrite Rabs_R0; lra|].
  eapply Rle_trans; [apply Rabs_triang|]. pose proof (IH f). lra.
Qed.
Lemma rsum_le : forall n f g, (forall i, (i < n)%nat -> f i <= g i) -> rsum n f <= rsum n g.
Proof.
  induction n as [|n IH]; intros f g H; simpl; [lra|].
  pose proof (IH f g ltac:(intros; apply H; lia)). pose proof (H n ltac:(lia)). lra.
Qed.
Lemma size_rsum : forall c, size_of c = rsum (length c) (fun i => Rabs (nth i c 0)).
Proof.
  induction c as [|a c IH]; [reflexivity|]. cbn [length]. rewrite rsum_split0. cbn [nth].
  unfold size_of in *. simpl. rewrite IH. reflexivity.
Qed.
Lemma rsum_nonneg : forall n f, (forall i, (i < n)%nat -> 0 <= f i) -> 0 <= rsum n f.
Proof.
  intros n f H. rewrite <- (rsum_0 n (fun _ => 0)) by reflexivity. apply rsum_le. exact H.
Qed.
Lemma tail_size : forall c n k, length c = (k + n)%nat ->
  rsum n (fun q => Rabs (nth (k + q) c 0)) <= size_of c.
Proof.
  intros c n k L. rewrite size_rsum, L, rsum_app.
  pose proof (rsum_nonneg k (fun i => Rabs (nth i c 0)) (fun i _ => Rabs_pos _)). lra.
Qed.

Section Res.
Variables (b : bbasis) (m : nat) (e : R).
Hypothesis W : well_formed b.
Hypothesis CL : clamped b.
Hypothesis M1 : (1 <= m)%nat.
Hypothesis M2 : (m <= degree b + 1)%nat.
Hypothesis E0 : 0 < e.
Let d := degree b.
Let N := blen b.
Let b2 := extra_basis b m e.

Lemma res_N : (d + 1 <= N)%nat.
Proof. destruct W as [ND LE]. unfold d, N, blen. lia. Qed.

Lemma extra_col : forall tol cols q, extra_cols tol b m e = Some cols -> (q < d + 1)%nat ->
  nth q cols [] = map (zap tol) (xlast b m e (unitc b q)).
Proof.
  intros tol cols q HT Hq. unfold extra_cols in HT. fold d in HT. apply oall_spec in HT.
  assert (LT : length cols = (d + 1)%nat).
  { rewrite <- (map_length Some cols), <- HT, map_length, seq_length. reflexivity. }
  set (f := fun q0 => match gsolve (d + 1)
       (map (fun i => (extra_A b m e i, nth q0 (extra_B b m e i) 0)) (seq 0 (d + 1))) with
    | None => None | Some x => Some (map (zap tol) x) end) in HT.
  assert (E : nth_error (map f (seq 0 (d + 1))) q = nth_error (map Some cols) q) by (rewrite HT; reflexivity).
  assert (E1 : nth_error (map f (seq 0 (d + 1))) q = Some (f q)).
  { apply map_nth_error. rewrite nth_error_nth' with (d := 0%nat) by (rewrite seq_length; exact Hq).
    rewrite seq_nth by exact Hq. reflexivity. }
  assert (E2 : nth_error (map Some cols) q = Some (Some (nth q cols []))).
  { apply map_nth_error. apply nth_error_nth'. lia. }
  rewrite E1, E2 in E. inversion E as [E3]. clear E E1 E2.
  unfold f in E3.
  destruct (gsolve _ _) as [x|] eqn:G; [|discriminate]. inversion E3 as [E4]. clear E3.
  apply gsolve_spec in G.
  - destruct G as [LX U]. f_equal. symmetry. apply U.
    + unfold xlast. rewrite map_length, seq_length. reflexivity.
    + apply Forall_forall. intros p I. apply in_map_iff in I. destruct I as [i [E Hi]]. subst p.
      unfold holds_row. cbn [fst snd]. apply in_seq in Hi.
      rewrite (rows_hold b m e W CL M1 M2 E0 (unitc b q) i ltac:(fold d; lia)).
      unfold clast. fold d N. rewrite (dot_rows) by (unfold d; apply extra_B_length; assumption).
      rewrite (rsum_pick _ q).
      * unfold unitc. fold d N. rewrite Nat.eqb_refl. ring.
      * exact Hq.
      * intros l Hl NE. unfold unitc. fold d N.
        destruct (Nat.eqb_spec (N - (d + 1) + l) (N - (d + 1) + q)); [lia|ring].
  - intros r I. apply in_map_iff in I. destruct I as [i [E Hi]]. subst r. cbn [fst].
    unfold d. apply extra_A_length; assumption.
Qed.

Lemma extc_lin : forall c a, (N + m - (d + 1) <= a)%nat ->
  extc b m e c a = rsum (d + 1) (fun q => c (N - (d + 1) + q)%nat * extc b m e (unitc b q) a).
Proof.
  intros c a H. pose proof res_N. unfold extc. fold d N.
  rewrite (proj2 (Nat.ltb_ge a _)) by exact H.
  set (us := map (kn (extra_basis b m e)) (seq (S a) d)).
  rewrite <- (piece_rsum d (kn b) (N - 1) us (d + 1) (fun q => c (N - (d + 1) + q)%nat) (unitc b)).
  apply piece_ext.
  - unfold us. rewrite map_length, seq_length. reflexivity.
  - lia.
  - intros i Hi. rewrite (rsum_pick _ (i - (N - (d + 1)))).
    + unfold unitc. fold d N. replace (N - (d + 1) + (i - (N - (d + 1))))%nat with i by lia.
      rewrite Nat.eqb_refl. ring.
    + lia.
    + intros q Hq NE. unfold unitc. fold d N. destruct (Nat.eqb_spec i (N - (d + 1) + q)); [lia|ring].
  - reflexivity.
Qed.

Section Vec.
Variables (tol : R) (c c2 : list R).
Hypothesis T0 : 0 <= tol.
Hypothesis LC : length c = blen b.
Hypothesis IM : inner_mult b = Some m.
Hypothesis EX : extrapolate tol c e b = Some c2.
Let cc := fun i => nth i c 0.

Lemma res_form : exists cols, extra_cols tol b m e = Some cols /\
  c2 = mdot (N + m) N (fun i j =>
        if (N + m - (d + 1) <=? i)%nat && (N - (d + 1) <=? j)%nat
        then cols_entry cols (i - (N + m - (d + 1)))%nat (j - (N - (d + 1)))%nat
        else eye i j) c.
Proof.
  unfold extrapolate, extrapolate_T in EX. rewrite IM in EX.
  destruct (extra_cols tol b m e) as [cols|]; [|discriminate]. exists cols. split; [reflexivity|].
  inversion EX. reflexivity.
Qed.

Lemma res_len : length c2 = (N + m)%nat.
Proof. destruct res_form as [cols [_ ->]]. apply mdot_length. Qed.

Lemma res_keep : forall i, (i < N + m - (d + 1))%nat -> nth i c2 0 = nth i c 0.
Proof.
  intros i Hi. destruct res_form as [cols [_ ->]]. pose proof res_N.
  rewrite mdot_nth by lia. rewrite (rsum_pick _ i).
  - rewrite (proj2 (Nat.leb_gt _ i)) by lia. simpl. unfold eye. rewrite Nat.eqb_refl. ring.
  - unfold d in *. lia.
  - intros q Hq NE. rewrite (proj2 (Nat.leb_gt _ i)) by lia. simpl. unfold eye.
    destruct (Nat.eqb_spec i q); [lia|ring].
Qed.

Lemma res_new : forall i, (N + m - (d + 1) <= i < N + m)%nat ->
  Rabs (nth i c2 0 - extc b m e cc i) <= tol * size_of c.
Proof.
  intros i Hi. destruct res_form as [cols [HC ->]]. pose proof res_N as EN.
  rewrite mdot_nth by lia.
  rewrite (rsum_from N (N - (d + 1))).
  2:{ lia. }
  2:{ intros q Hq. rewrite (proj2 (Nat.leb_gt _ q)) by lia. rewrite andb_false_r. unfold eye.
      destruct (Nat.eqb_spec i q); [lia|ring]. }
  replace (N - (N - (d + 1)))%nat with (d + 1)%nat by lia.
  rewrite (extc_lin cc i) by lia.
  assert (E : forall q, (q < d + 1)%nat ->
    Rabs ((if (N + m - (d + 1) <=? i)%nat && (N - (d + 1) <=? N - (d + 1) + q)%nat
     then cols_entry cols (i - (N + m - (d + 1)))%nat (N - (d + 1) + q - (N - (d + 1)))%nat
     else eye i (N - (d + 1) + q)%nat) * nth (N - (d + 1) + q) c 0
     + -1 * (cc (N - (d + 1) + q)%nat * extc b m e (unitc b q) i)) <= tol * Rabs (nth (N - (d + 1) + q) c 0)).
  { intros q Hq. rewrite (proj2 (Nat.leb_le _ i)) by lia.
    rewrite (proj2 (Nat.leb_le (N - (d + 1)) _)) by lia. simpl andb. cbv iota.
    replace (N - (d + 1) + q - (N - (d + 1)))%nat with q by lia.
    unfold cols_entry. rewrite (extra_col tol cols q HC Hq).
    rewrite (nth_indep _ 0 (zap tol 0)).
    - rewrite map_nth. unfold xlast. fold d N. rewrite nth_map_from by lia.
      replace (N + m - (d + 1) + (i - (N + m - (d + 1))))%nat with i by lia.
      set (z := extc b m e (unitc b q) i). unfold cc.
      replace (zap tol z * nth (N - (d + 1) + q) c 0 + -1 * (nth (N - (d + 1) + q) c 0 * z))
        with ((zap tol z - z) * nth (N - (d + 1) + q) c 0) by ring.
      rewrite Rabs_mult. apply Rmult_le_compat_r; [apply Rabs_pos|]. apply zap_diff. exact T0.
    - rewrite map_length. unfold xlast. rewrite map_length, seq_length. fold d. lia. }
  match goal with |- Rabs (rsum _ ?f - rsum _ ?g) <= _ =>
    replace (rsum (d + 1) f - rsum (d + 1) g) with (rsum (d + 1) (fun q => f q + -1 * g q))
      by (rewrite rsum_add, rsum_scal; ring) end.
  eapply Rle_trans; [apply rsum_abs|].
  eapply Rle_trans; [apply rsum_le; exact E|]. rewrite rsum_scal.
  apply Rmult_le_compat_l; [exact T0|]. apply tail_size. rewrite LC. fold N. lia.
Qed.

Lemma res_all : forall i, (i < N + m)%nat -> Rabs (nth i c2 0 - extc b m e cc i) <= tol * size_of c.
Proof.
  intros i Hi. destruct (le_lt_dec (N + m - (d + 1)) i) as [H|H]; [apply res_new; lia|].
  rewrite res_keep by exact H. unfold extc. fold d N. rewrite (proj2 (Nat.ltb_lt i _)) by exact H.
  unfold cc. replace (nth i c 0 - nth i c 0) with 0 by ring. rewrite Rabs_R0.
  apply Rmult_le_pos; [exact T0|apply size_nonneg].
Qed.

Lemma res_call : forall x, in_domain b2 x ->
  Rabs (call (mkS b2 c2) x - call (mkS b2 (extl b m e cc)) x) <= tol * size_of c.
Proof.
  intros x D. unfold call. cbn [sbasis coeffs].
  assert (LL : length (extl b m e cc) = (N + m)%nat)
    by (unfold extl; rewrite map_length, seq_length; reflexivity).
  pose proof (ext_blen2 b m e W CL M1 M2) as BL. fold N b2 in BL.
  rewrite dot_minus by (rewrite res_len, LL; reflexivity).
  apply Rle_trans with (tol * size_of c * total (eval_basis b2 x)).
  - apply dot_bound.
    + rewrite map_length, combine_length, res_len, LL, blen_eval, BL. lia.
    + intros a I. apply (basis_nonneg b2 x a (ext_wf b m e W CL M1 M2 E0) D I).
    + intros v I. apply In_nth with (d := 0) in I. destruct I as [i [Hi E]].
      rewrite map_length, combine_length, res_len, LL, Nat.min_id in Hi. subst v.
      assert (E0' : nth i (map (fun p => fst p - snd p) (combine c2 (extl b m e cc))) 0
              = (fun p : R * R => fst p - snd p) (nth i (combine c2 (extl b m e cc)) (0, 0))).
      { rewrite <- (map_nth (fun p : R * R => fst p - snd p)). apply nth_indep.
        rewrite map_length, combine_length, res_len, LL, Nat.min_id. exact Hi. }
      rewrite E0'. rewrite combine_nth by (rewrite res_len, LL; reflexivity). cbn [fst snd].
      unfold extl at 1. fold N. rewrite nth_map_seq by exact Hi. apply res_all. exact Hi.
  - rewrite (partition_of_unity b2 x (ext_wf b m e W CL M1 M2 E0) D). lra.
Qed.

Lemma res_in : forall x, dom_left b <= x <= dom_right b + e -> in_domain b2 x.
Proof.
  intros x H. pose proof res_N as EN.
  pose proof (ext_len b m W M1 M2) as EL. fold d N in EL.
  assert (DR : dom_right b2 = dom_right b + e).
  { unfold dom_right. change (nth (length (knots b2) - degree b2 - 1) (knots b2) 0) with
      (kn b2 (length (knots b2) - degree b2 - 1)). unfold b2.
    rewrite (ext_len2 b m e W CL M1 M2). change (degree (extra_basis b m e)) with d. fold d N.
    rewrite (ext_kn_new b m e W CL M1 M2) by (fold d N; lia). fold N. f_equal. }
  assert (DL : dom_left b2 = dom_left b).
  { unfold dom_left. change (degree b2) with d. apply (ext_kn_old b m e W CL M1 M2). fold N. lia. }
  unfold in_domain. rewrite DR, DL. destruct (Rle_lt_or_eq_dec (dom_left b) x) as [L|L]; [lra|left; lra|right].
  destruct CL as [C1 [C2 [C3 C4]]].
  assert (E1 : nth 0 (knots b2) 0 = nth 0 (knots b) 0) by (apply (ext_kn_old b m e W CL M1 M2); fold N; lia).
  assert (E2 : nth (degree b2 + 1) (knots b2) 0 = nth (degree b + 1) (knots b) 0).
  { change (degree b2) with d. apply (ext_kn_old b m e W CL M1 M2). fold d N. lia. }
  rewrite E1, E2, C1. unfold dom_left in *. split; [lra|]. split; [lra|exact C3].
Qed.

Lemma cc_call : forall x, call (mkS b (map cc (seq 0 N))) x = call (mkS b c) x.
Proof.
  intros x. f_equal. f_equal. unfold cc. unfold N. rewrite <- LC. apply map_nth_seq_id.
Qed.

Lemma ext_call_old : forall x, dom_left b <= x <= dom_right b ->
  call (mkS b2 (extl b m e cc)) x = call (mkS b c) x.
Proof.
  intros x H. pose proof res_N as EN. pose proof (ext_len b m W M1 M2) as EL. fold d N in EL.
  assert (D : in_domain b x).
  { apply (clamped_in b (dom_left b) (dom_right b)); [|exact H].
    split; [exact W|]. split; [exact CL|]. destruct CL as [C1 [C2 [C3 C4]]].
    split; [exact C1|]. symmetry. exact C2. }
  destruct (active_exists b x W D) as [J A].
  assert (AJ : (J < N)%nat) by (destruct A as [_ [A _]]; fold d in A; lia).
  assert (A2 : active b2 x J).
  { destruct A as [A1 [A2 [A3 A4]]]. split; [exact A1|]. unfold b2. rewrite (ext_len2 b m e W CL M1 M2).
    change (degree (extra_basis b m e)) with d. fold d N. fold d in A2, A4. split; [lia|].
    rewrite !(ext_kn_old b m e W CL M1 M2) by (fold N; lia). split; [exact A3|exact A4]. }
  unfold b2. rewrite (extl_call b m e W CL M1 M2 E0 cc x J A2). fold N.
  rewrite (proj2 (Nat.ltb_lt J N) AJ). rewrite <- cc_call.
  destruct W as [ND LE].
  assert (SZ : sized (mkS b (map cc (seq 0 N)))).
  { unfold sized. cbn [coeffs sbasis]. rewrite map_length, seq_length. reflexivity. }
  rewrite (call_piece (mkS b (map cc (seq 0 N))) x J ND SZ A). cbn [sbasis]. apply piece_ext.
  - apply repeat_length.
  - apply A.
  - intros i Hi. unfold cf. cbn [coeffs]. rewrite nth_map_seq by lia. reflexivity.
  - reflexivity.
Qed.

Lemma ext_call_new : forall x, last_inner b < x <= dom_right b + e ->
  call (mkS b2 (extl b m e cc)) x = piece d (kn b) cc (N - 1) (repeat x d).
Proof.
  intros x H. pose proof res_N as EN. pose proof (ext_len b m W M1 M2) as EL. fold d N in EL.
  assert (LI : last_inner b = kn b (N - 1)).
  { unfold last_inner, kn. rewrite EL. fold d. f_equal. lia. }
  assert (DR : dom_right b = kn b N).
  { unfold dom_right, kn. rewrite EL. fold d. f_equal. lia. }
  destruct (Rle_lt_dec x (dom_right b)) as [G|G].
  - assert (A : active b2 x (N - 1)).
    { apply active_inside.
      - change (degree b2) with d. lia.
      - unfold b2. rewrite (ext_len2 b m e W CL M1 M2). change (degree (extra_basis b m e)) with d. fold d N. lia.
      - replace (N - 1 + 1)%nat with N by lia. unfold b2. rewrite !(ext_kn_old b m e W CL M1 M2) by (fold N; lia). lra. }
    unfold b2. rewrite (extl_call b m e W CL M1 M2 E0 cc x _ A). fold d N.
    rewrite (proj2 (Nat.ltb_lt (N - 1) N)) by lia. reflexivity.
  - assert (A : active b2 x (N + m - 1)).
    { apply active_inside.
      - change (degree b2) with d. lia.
      - unfold b2. rewrite (ext_len2 b m e W CL M1 M2). change (degree (extra_basis b m e)) with d. fold d N. lia.
      - unfold b2. rewrite (ext_mid b m e W CL M1 M2) by (fold N; lia).
        rewrite (ext_kn_new b m e W CL M1 M2) by (fold d N; lia). fold N. lra. }
    unfold b2. rewrite (extl_call b m e W CL M1 M2 E0 cc x _ A). fold d N.
    rewrite (proj2 (Nat.ltb_ge (N + m - 1) N)) by lia. reflexivity.
Qed.

Lemma res_extended : extended b m e = b2.
Proof.
  unfold extended, b2, extra_basis. f_equal. pose proof (ext_len b m W M1 M2) as EL.
  pose proof (ext_last b m W CL M1 M2) as ELA.
  assert (DR : dom_right b = kn b (blen b)).
  { unfold dom_right, kn. rewrite EL. f_equal. lia. }
  rewrite ELA, <- DR. unfold dom_right. reflexivity.
Qed.

Theorem res_main :
  length c2 = (N + m)%nat /\
  (forall i, (i < N + m - (d + 1))%nat -> nth i c2 0 = nth i c 0) /\
  (forall x, dom_left b <= x <= dom_right b ->
     Rabs (call (mkS (extended b m e) c2) x - call (mkS b c) x) <= tol * size_of c) /\
  (exists a, length a = (d + 1)%nat /\
     (forall x, last_inner b < x <= dom_right b -> call (mkS b c) x = poly a x) /\
     (forall x, last_inner b < x <= dom_right b + e ->
        Rabs (call (mkS (extended b m e) c2) x - poly a x) <= tol * size_of c)).
Proof.
  rewrite res_extended. split; [apply res_len|]. split; [apply res_keep|].
  assert (LI : dom_left b <= last_inner b).
  { destruct W as [ND LE]. unfold dom_left, last_inner. apply ND; lia. }
  split.
  - intros x H. rewrite <- (ext_call_old x H). apply res_call. apply res_in. lra.
  - destruct (symaff_poly d (piece d (kn b) cc (N - 1)) (Fl_symaff b m W CL M1 M2 cc)) as [a [LA HA]].
    exists a. split; [lia|]. split.
    + intros x H. rewrite <- (ext_call_old x) by lra. rewrite ext_call_new by lra. apply HA.
    + intros x H. rewrite <- HA, <- (ext_call_new x H). apply res_call. apply res_in. lra.
Qed.
End Vec.
End Res.

(** the number of repeated knots *)
Lemma inner_repeat_spec : forall fuel b m0 m, inner_repeat fuel b m0 = Some m -> (1 <= m0)%nat ->
  nondecreasing (knots b) ->
  (forall i, (i < m0)%nat -> kn b (length (knots b) - degree b - 2 - i) = kn b (length (knots b) - degree b - 2)) ->
  last_mult b m.
Proof.
  induction fuel as [|f IH]; intros b m0 m H H0 ND HE; [discriminate|]. simpl in H.
  destruct (Nat.leb_spec (degree b + 2 + m0) (length (knots b))) as [L|L]; [|discriminate].
  destruct (Rleb _ _) eqn:R.
  - apply (IH b (m0 + 1)%nat m H); [lia|exact ND|]. intros i Hi.
    destruct (Nat.eq_dec i m0) as [->|NE]; [|apply HE; lia].
    apply Rleb_true in R. apply Rle_antisym; [unfold kn; apply ND; lia|exact R].
  - assert (m0 = m) as <- by congruence. apply Rleb_false in R.
    split; [exact H0|]. split; [lia|]. split; [exact HE|exact R].
Qed.

Lemma inner_mult_spec : forall b m, well_formed b -> inner_mult b = Some m -> last_mult b m.
Proof.
  intros b m [ND LE] H. apply (inner_repeat_spec _ _ _ _ H); [lia|exact ND|].
  intros i Hi. replace (length (knots b) - degree b - 2 - i)%nat with (length (knots b) - degree b - 2)%nat by lia.
  reflexivity.
Qed.

Lemma mult_bound : forall b m, well_formed b -> supports_positive b -> last_mult b m -> (m <= degree b + 1)%nat.
Proof.
  intros b m [ND LE] SP [L1 [L2 [L3 L4]]]. destruct (le_lt_dec m (degree b + 1)) as [H|H]; [exact H|]. exfalso.
  pose proof (L3 (degree b + 1)%nat ltac:(lia)) as E. unfold last_inner in E.
  pose proof (SP (length (knots b) - degree b - 2 - (degree b + 1))%nat ltac:(lia)) as P.
  replace (length (knots b) - degree b - 2 - (degree b + 1) + degree b + 1)%nat
    with (length (knots b) - degree b - 2)%nat in P by lia. lra.
Qed.

Theorem extrapolate_close : forall tol b e c c2, 0 <= tol -> well_formed b -> clamped b -> supports_positive b ->
  0 < e -> length c = blen b -> extrapolate tol c e b = Some c2 ->
  exists m, last_mult b m /\ length c2 = (blen b + m)%nat /\
  (forall i, (i < blen b + m - (degree b + 1))%nat -> nth i c2 0 = nth i c 0) /\
  (forall x, dom_left b <= x <= dom_right b ->
     Rabs (call (mkS (extended b m e) c2) x - call (mkS b c) x) <= tol * size_of c) /\
  (exists a, length a = (degree b + 1)%nat /\
     (forall x, last_inner b < x <= dom_right b -> call (mkS b c) x = poly a x) /\
     (forall x, last_inner b < x <= dom_right b + e ->
        Rabs (call (mkS (extended b m e) c2) x - poly a x) <= tol * size_of c)).
Proof.
  intros tol b e c c2 T0 W CL SP E0 LC EX.
  destruct (inner_mult b) as [m|] eqn:IM; [|unfold extrapolate, extrapolate_T in EX; rewrite IM in EX; discriminate].
  pose proof (inner_mult_spec b m W IM) as LM. pose proof (mult_bound b m W SP LM) as MB.
  exists m. split; [exact LM|]. destruct LM as [L1 _].
  apply (res_main b m e W CL L1 MB E0 tol c c2 T0 LC IM EX).
Qed.
