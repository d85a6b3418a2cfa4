(** When extrapolate and shift_over_knot return a result: the equations are
    regular when the last Greville points lie in the last knot interval. *)
From Coq Require Import Reals Lra Lia List Permutation Arith Bool.
From Verif Require Import Blossom Spline_Model Spline_Spec Spline_Proofs Spline_Proofs2 Spline_Proofs5 Span_Proofs
  Splop_Model Splop_Spec Splop_Proofs Splop_Proofs2 Splop_Proofs4 Contact_Proofs Shift_Model Shift_Spec Shift_Proofs Shift_Proofs2
  Shift_Proofs3 Shift_Proofs4 Shift_Proofs5.
Import ListNotations.
Local Open Scope R_scope.

(** ** polynomials with given roots *)
Lemma poly_divide : forall n a g, length a = S n -> exists q, length q = n /\
  forall x, poly a x - poly a g = (x - g) * poly q x.
Proof.
  induction n as [|n IH]; intros a g L; destruct a as [|c a]; try discriminate.
  - destruct a; [|discriminate]. exists []. split; [reflexivity|]. intros x. simpl. ring.
  - destruct (IH a g ltac:(simpl in L; lia)) as [q [LQ H]]. exists (poly a g :: q).
    split; [simpl; lia|]. intros x. simpl. specialize (H x).
    replace (c + x * poly a x - (c + g * poly a g)) with (x * (poly a x - poly a g) + (x - g) * poly a g) by ring.
    rewrite H. ring.
Qed.

Fixpoint rootprod (gs : list R) (x : R) : R :=
  match gs with [] => 1 | g :: gs' => (x - g) * rootprod gs' x end.

Lemma poly_roots : forall gs a, length a = S (length gs) -> NoDup gs ->
  (forall g, In g gs -> poly a g = 0) -> exists al, forall x, poly a x = al * rootprod gs x.
Proof.
  induction gs as [|g gs IH]; intros a L ND Z.
  - destruct a as [|c [|? ?]]; try discriminate. exists c. intros x. simpl. ring.
  - simpl in L. destruct (poly_divide (S (length gs)) a g L) as [q [LQ H]].
    apply NoDup_cons_iff in ND. destruct ND as [NI ND].
    destruct (IH q LQ ND) as [al HA].
    + intros g' I. pose proof (H g') as E. rewrite (Z g'), (Z g) in E by (simpl; tauto).
      assert (NE : g' - g <> 0) by (intros Q; apply NI; replace g with g' by lra; exact I).
      replace (0 - 0) with 0 in E by ring. symmetry in E. apply Rmult_integral in E. tauto.
    + exists al. intros x. simpl. pose proof (H x) as E. rewrite (Z g) in E by (simpl; tauto).
      rewrite HA in E. lra.
Qed.

Fixpoint rootform (gs : list R) : list R -> R :=
  match gs with
  | [] => fun _ => 1
  | g :: gs' => prodform 1 (length gs') (fun l => hd 0 l - g) (rootform gs')
  end.

Lemma hd_symaff : forall g, symaff 1 (fun l => hd 0 l - g).
Proof.
  intros g. split.
  - intros [|u [|? ?]] vs L P; try discriminate. apply Permutation_length_1_inv in P. subst. reflexivity.
  - intros us w u v _. simpl. ring.
Qed.
Lemma rootform_symaff : forall gs, symaff (length gs) (rootform gs).
Proof.
  induction gs as [|g gs IH].
  - split; [reflexivity|]. intros us w u v H. discriminate.
  - destruct (psum_symaff 1 (length gs) _ _ (hd_symaff g) IH) as [P Q]. cbn [length rootform].
    change (S (length gs)) with (1 + length gs)%nat. unfold prodform. split.
    + intros us vs L H. rewrite (P us vs L H). reflexivity.
    + intros us w u v L. rewrite Q by exact L. ring.
Qed.
Lemma rootform_diag : forall gs x, rootform gs (repeat x (length gs)) = rootprod gs x.
Proof.
  induction gs as [|g gs IH]; intros x; [reflexivity|]. cbn [rootform length rootprod].
  change (S (length gs)) with (1 + length gs)%nat. rewrite prodform_diag, IH. reflexivity.
Qed.

Lemma form_roots : forall d F gs, symaff d F -> length gs = d -> NoDup gs ->
  (forall g, In g gs -> F (repeat g d) = 0) ->
  exists al, forall us, length us = d -> F us = al * rootform gs us.
Proof.
  intros d F gs SA L ND Z. destruct (symaff_poly d F SA) as [a [LA HA]].
  destruct (poly_roots gs a ltac:(lia) ND) as [al HP].
  { intros g I. rewrite <- HA. apply Z. exact I. }
  exists al. pose proof (rootform_symaff gs) as [P Q].
  apply (form_unique d F (fun us => al * rootform gs us) 0 1 SA); [|lra|].
  - split.
    + intros us vs H1 H2. rewrite (P us vs) by (auto; lia). reflexivity.
    + intros us w u v H1. rewrite Q by lia. ring.
  - intros x _. rewrite HA, HP. rewrite <- rootform_diag. rewrite L. reflexivity.
Qed.

(** sign of the form left of all its roots *)
Definition sg (n : nat) : R := (-1) ^ n.
Lemma psum_sign : forall n us f g s tau, length us = S n ->
  (forall u, In u us -> u <= tau) -> (forall u, u <= tau -> f [u] <= 0) ->
  (forall l, length l = n -> (forall u, In u l -> u <= tau) -> 0 < s * g l) ->
  0 <= - s * psum us 1 n f g /\ ((exists u, In u us /\ f [u] < 0) -> 0 < - s * psum us 1 n f g).
Proof.
  induction n as [|n IH]; intros us f g s tau L U Hf Hg.
  - destruct us as [|u [|? ?]]; try discriminate. simpl psum.
    pose proof (Hf u (U u (or_introl eq_refl))) as F1. pose proof (Hg [] eq_refl ltac:(intros ? [])) as G1.
    replace (- s * (f [u] * g [])) with ((- f [u]) * (s * g [])) by ring. split.
    + apply Rmult_le_pos; lra.
    + intros [v [[E|[]] H]]. subst v. apply Rmult_lt_0_compat; lra.
  - destruct us as [|u us]; [discriminate|]. cbn [psum]. simpl in L.
    assert (E0 : psum us 0 (S n) (fun l => f (u :: l)) g = f [u] * g us) by (destruct us; reflexivity).
    rewrite E0.
    destruct (IH us f (fun l => g (u :: l)) s tau ltac:(lia)) as [I1 I2].
    + intros v I. apply U. right. exact I.
    + exact Hf.
    + intros l Ll Hl. apply Hg; [simpl; lia|]. intros v [<-|I]; [apply U; left; reflexivity|apply Hl; exact I].
    + pose proof (Hf u (U u (or_introl eq_refl))) as F1.
      pose proof (Hg us ltac:(lia) ltac:(intros v I; apply U; right; exact I)) as G1.
      replace (- s * (f [u] * g us + psum us 1 n f (fun l => g (u :: l))))
        with ((- f [u]) * (s * g us) + - s * psum us 1 n f (fun l => g (u :: l))) by ring.
      assert (0 <= (- f [u]) * (s * g us)) by (apply Rmult_le_pos; lra).
      split; [lra|]. intros [v [[E|I] H1]].
      * subst v. assert (0 < (- f [u]) * (s * g us)) by (apply Rmult_lt_0_compat; lra). lra.
      * assert (0 < - s * psum us 1 n f (fun l => g (u :: l))) by (apply I2; exists v; tauto). lra.
Qed.

Lemma rootform_strict : forall gs us tau, length us = length gs ->
  (forall u, In u us -> u <= tau) -> (forall g, In g gs -> tau < g) ->
  0 < sg (length gs) * rootform gs us.
Proof.
  induction gs as [|g gs IH]; intros us tau L U H; [unfold sg; simpl; lra|].
  cbn [rootform length]. unfold prodform. simpl in L.
  destruct (psum_sign (length gs) us (fun l => hd 0 l - g) (rootform gs) (sg (length gs)) tau L U) as [_ P].
  - intros u Hu. simpl. pose proof (H g (or_introl eq_refl)). lra.
  - intros l Ll Hl. apply (IH l tau Ll Hl). intros g' I. apply H. right. exact I.
  - destruct us as [|u us]; [discriminate|].
    assert (Q : 0 < - sg (length gs) * psum (u :: us) 1 (length gs) (fun l => hd 0 l - g) (rootform gs)).
    { apply P. exists u. split; [left; reflexivity|]. simpl. pose proof (U u (or_introl eq_refl)).
      pose proof (H g (or_introl eq_refl)). lra. }
    pose proof (pcount_pos 1 (length gs)) as C. apply Rinv_0_lt_compat in C.
    replace (sg (S (length gs))) with (- sg (length gs)) by (unfold sg; simpl; ring).
    match goal with |- 0 < - ?s * (?i * ?p) => replace (- s * (i * p)) with (i * (- s * p)) by ring end.
    apply Rmult_lt_0_compat; assumption.
Qed.

Lemma rootform_nonzero : forall g gs us tau, length us = S (length gs) ->
  (forall u, In u us -> u <= tau) -> tau <= g -> (forall g', In g' gs -> tau < g') ->
  (exists u, In u us /\ u < g) -> rootform (g :: gs) us <> 0.
Proof.
  intros g gs us tau L U Hg H [u [Iu Hu]] Z. cbn [rootform] in Z. unfold prodform in Z.
  destruct (psum_sign (length gs) us (fun l => hd 0 l - g) (rootform gs) (sg (length gs)) tau L U) as [_ P].
  - intros v Hv. simpl. lra.
  - intros l Ll Hl. apply (rootform_strict gs l tau Ll Hl H).
  - assert (Q : 0 < - sg (length gs) * psum us 1 (length gs) (fun l => hd 0 l - g) (rootform gs)).
    { apply P. exists u. split; [exact Iu|]. simpl. lra. }
    pose proof (pcount_pos 1 (length gs)) as C. apply Rinv_0_lt_compat in C.
    apply Rmult_integral in Z. destruct Z as [Z|Z]; [lra|]. rewrite Z in Q. lra.
Qed.

(** ** the derivative row *)
Lemma DV_top : forall ks s v, (degree ks <= s)%nat ->
  (forall j i, (j + i < degree ks)%nat -> kn ks (j + s + i - degree ks) < kn ks (j + s)) ->
  (forall q, (q < degree ks)%nat -> v q = 0) ->
  forall i j, (j + i <= degree ks)%nat ->
  ((j + i < degree ks)%nat -> DV ks s i v j = 0) /\
  ((j + i = degree ks)%nat -> exists f, 0 < f /\ DV ks s i v j = f * v (degree ks)).
Proof.
  intros ks s v Hs HK HV. induction i as [|i IH]; intros j Hj.
  - split; intros H; rewrite DV_0 by lia.
    + apply HV. lia.
    + exists 1. split; [lra|]. rewrite Nat.add_0_r in H. subst j. ring.
  - rewrite DV_S by lia. pose proof (HK j i ltac:(lia)) as K.
    assert (FP : 0 < INR (degree ks - i) / (kn ks (j + s) - kn ks (j + s + i - degree ks))).
    { apply Rdiv_lt_0_compat; [apply lt_0_INR; lia|lra]. }
    destruct (IH (j + 1)%nat ltac:(lia)) as [A1 A2]. destruct (IH j ltac:(lia)) as [B1 _].
    split; intros H.
    + rewrite A1, B1 by lia. ring.
    + rewrite B1 by lia. destruct (A2 ltac:(lia)) as [f [F1 F2]]. rewrite F2.
      exists (INR (degree ks - i) / (kn ks (j + s) - kn ks (j + s + i - degree ks)) * f).
      split; [apply Rmult_lt_0_compat; assumption|ring].
Qed.

(** ** Greville points *)
Lemma greville_nth : forall b k, (k < blen b)%nat ->
  nth k (greville b) 0 = 1 / INR (degree b) * rsum (degree b) (fun i => kn b (k + 1 + i)).
Proof.
  intros b k H. unfold greville. rewrite nth_map_seq by exact H. f_equal.
  change (fold_left Rplus (map (kn b) (seq (k + 1) (degree b))) 0) with (rangesum (k + 1) (degree b) (kn b)).
  apply rangesum_shift.
Qed.
Lemma greville_step : forall b k, (1 <= degree b)%nat -> (S k < blen b)%nat ->
  nth (S k) (greville b) 0 - nth k (greville b) 0 = (kn b (k + degree b + 1) - kn b (k + 1)) / INR (degree b).
Proof.
  intros b k H1 H2. rewrite !greville_nth by lia.
  replace (degree b) with (S (degree b - 1)) at 2 4 by lia.
  rewrite (rsum_split0 (degree b - 1) (fun i => kn b (k + 1 + i))).
  replace (rsum (S (degree b - 1)) (fun i => kn b (S k + 1 + i)))
    with (rsum (degree b - 1) (fun i => kn b (S k + 1 + i)) + kn b (S k + 1 + (degree b - 1))) by reflexivity.
  rewrite (rsum_ext _ (fun i => kn b (k + 1 + S i)) (fun i => kn b (S k + 1 + i))) by (intros; f_equal; lia).
  replace (S k + 1 + (degree b - 1))%nat with (k + degree b + 1)%nat by lia. rewrite Nat.add_0_r.
  unfold Rdiv. ring.
Qed.

Lemma t1 : (1 <= 1)%nat. Proof. lia. Qed.
Lemma t2 : forall b, (1 <= degree b + 1)%nat. Proof. intros. lia. Qed.

Section Tot.
Variables (b : bbasis) (e : R).
Hypothesis W : well_formed b.
Hypothesis CL : clamped b.
Hypothesis E0 : 0 < e.
Hypothesis LM : last_mult b 1.
Hypothesis D1 : (1 <= degree b)%nat.
Let d := degree b.
Let N := blen b.
Let b2 := extra_basis b 1 e.
Hypothesis GV : last_inner b <= nth (N - d) (greville b) 0.

Lemma tot_len : length (knots b) = (N + d + 1)%nat.
Proof. apply (ext_len b 1 W t1 (t2 b)). Qed.
Lemma tot_N : (d + 1 <= N)%nat.
Proof. apply (ext_N b 1 W t1 (t2 b)). Qed.
Lemma tot_last : last_inner b = kn b (N - 1).
Proof. unfold last_inner, kn. rewrite tot_len. fold d. f_equal. lia. Qed.
Lemma tot_prev : (2 <= N)%nat /\ kn b (N - 2) < kn b (N - 1).
Proof.
  destruct LM as [_ [L1 [_ L]]]. rewrite tot_last, tot_len in L. rewrite tot_len in L1. fold d in L, L1. split; [lia|].
  unfold kn in *. replace (N - 2)%nat with (N + d + 1 - d - 2 - 1)%nat by lia. exact L.
Qed.

Definition gs := map (fun i => nth (N - d + i) (greville b) 0) (seq 0 d).

Lemma grev_mono : forall i j, (N - d <= i)%nat -> (i < j < N)%nat ->
  nth i (greville b) 0 < nth j (greville b) 0.
Proof.
  intros i j Hi [H1 H2]. pose proof tot_N as TN. pose proof tot_len as TL. induction j as [|j IH]; [lia|].
  pose proof (greville_step b j D1 H2) as S. fold d in S.
  assert (P : 0 < (kn b (j + d + 1) - kn b (j + 1)) / INR d).
  { apply Rdiv_lt_0_compat; [|apply lt_0_INR; exact D1].
    assert (kn b (j + 1) <= kn b (N - 1)) by (destruct W as [ND LE]; unfold kn; apply ND; unfold d in *; lia).
    rewrite (ext_right b 1 W CL t1 (t2 b) (j + d + 1)) by (fold d N; unfold d, N in *; lia).
    pose proof (ext_step b 1 W CL t1 (t2 b)) as ES. fold N in ES |- *. lra. }
  destruct (Nat.eq_dec i j) as [->|NE]; [lra|].
  pose proof (IH ltac:(lia) ltac:(lia)). lra.
Qed.

Lemma gs_nodup : NoDup gs.
Proof.
  pose proof tot_N as TN. unfold gs. apply (NoDup_nth _ 0). intros i j Hi Hj E.
  rewrite map_length, seq_length in Hi, Hj. rewrite !nth_map_seq in E by assumption.
  destruct (lt_eq_lt_dec i j) as [[H|H]|H]; [|exact H|].
  - pose proof (grev_mono (N - d + i) (N - d + j) ltac:(lia) ltac:(lia)). lra.
  - pose proof (grev_mono (N - d + j) (N - d + i) ltac:(lia) ltac:(lia)). lra.
Qed.

Section Ker.
Variable x : list R.
Hypothesis LX : length x = (d + 1)%nat.
Hypothesis KER : forall i, (i < d + 1)%nat -> dot (extra_A b 1 e i) x = 0.
Let y := fun a => if (N - d <=? a)%nat && (a <? N)%nat then nth (a - (N - d)) x 0 else 0.
Let F := piece d (kn b2) y (N - 1).

Lemma ker_act : actint b2 (N - 1).
Proof. apply (ext_act_old b 1 e W CL t1 (t2 b)). apply (ext_actJ0 b 1 W CL t1 (t2 b)). Qed.
Lemma ker_sa : symaff d F.
Proof.
  pose proof tot_N. apply piece_symaff; [lia|]. apply (actint_pos b2); [apply (ext_sorted b 1 e W CL t1 (t2 b) E0)|apply ker_act].
Qed.

Lemma ker_call : forall g, dot (eval_basis b2 g) (map y (seq 0 (N + 1)))
  = rsum d (fun q => nth (N - d + q) (eval_basis b2 g) 0 * nth q x 0).
Proof.
  intros g. pose proof tot_N as TN. rewrite dot_rows by (rewrite blen_eval; apply (ext_blen2 b 1 e W CL t1 (t2 b))).
  replace (N + 1)%nat with ((N - d) + (d + 1))%nat by lia. rewrite rsum_app.
  rewrite rsum_0.
  2:{ intros i Hi. simpl. unfold y. rewrite (proj2 (Nat.leb_gt _ i)) by lia. simpl. ring. }
  rewrite Rplus_0_l. rewrite rsum_more.
  - apply rsum_ext. intros q Hq. simpl. unfold y. rewrite (proj2 (Nat.leb_le _ (N - d + q))) by lia.
    rewrite (proj2 (Nat.ltb_lt (N - d + q) _)) by lia. simpl. f_equal. f_equal. lia.
  - intros i Hi. simpl. unfold y. rewrite (proj2 (Nat.ltb_ge (N - d + i) _)) by lia. rewrite andb_false_r. ring.
Qed.

Lemma ker_roots : forall g, In g gs -> F (repeat g d) = 0.
Proof.
  intros g I. pose proof tot_N as TN. pose proof tot_len as TL. pose proof tot_last as TLa. pose proof tot_prev as [TP0 TP].
  unfold gs in I. apply in_map_iff in I. destruct I as [i [Eg Hi]]. apply in_seq in Hi.
  assert (Z : dot (eval_basis b2 g) (map y (seq 0 (N + 1))) = 0).
  { rewrite ker_call. pose proof (KER i ltac:(lia)) as K. unfold extra_A in K. fold d N b2 in K.
    replace (d + 1 - 1)%nat with d in K by lia. rewrite (proj2 (Nat.ltb_lt i d)) in K by lia. rewrite Eg in K.
    rewrite dot_rsum in K by (rewrite map_length, seq_length, LX; reflexivity).
    rewrite map_length, seq_length in K. rewrite rsum_more in K.
    - etransitivity; [|exact K]. apply rsum_ext. intros q Hq. rewrite nth_map_seq by lia.
      rewrite (proj2 (Nat.ltb_lt q d)) by exact Hq. f_equal. f_equal. lia.
    - intros q Hq. rewrite nth_map_seq by lia. rewrite (proj2 (Nat.ltb_ge q d)) by lia. ring. }
  assert (B1 : last_inner b <= g).
  { rewrite <- Eg. destruct (Nat.eq_dec i 0) as [->|NE]; [rewrite Nat.add_0_r; exact GV|].
    pose proof (grev_mono (N - d) (N - d + i) ltac:(lia) ltac:(lia)). lra. }
  assert (B2 : g <= kn b N).
  { rewrite <- Eg. pose proof (greville_bounds b (N - d + i) W D1 ltac:(fold N; lia)) as [_ G2]. fold d in G2.
    change (nth (N - d + i) (greville b) 0 <= kn b (N - d + i + d)) in G2.
    apply Rle_trans with (1 := G2). rewrite (ext_right b 1 W CL t1 (t2 b) (N - d + i + d)) by (fold d N; lia). fold N. lra. }
  assert (SZ : sized (mkS b2 (map y (seq 0 (N + 1))))).
  { unfold sized. cbn [coeffs sbasis]. rewrite map_length, seq_length. change (degree b2) with d.
    unfold b2. rewrite (ext_len2 b 1 e W CL t1 (t2 b)). fold d N. lia. }
  assert (PE : forall J, actint b2 J -> (J <= N - 1)%nat ->
    piece d (kn b2) (cf (mkS b2 (map y (seq 0 (N + 1))))) J (repeat g d) = piece d (kn b2) y J (repeat g d)).
  { intros J AJ HJ. apply piece_ext; [apply repeat_length|apply AJ| |reflexivity].
    intros a Ha. unfold cf. cbn [coeffs]. rewrite nth_map_seq by lia. reflexivity. }
  destruct (Rle_lt_or_eq_dec _ _ B1) as [L|L].
  - assert (A : active b2 g (N - 1)).
    { apply active_inside; [apply ker_act|apply ker_act|]. replace (N - 1 + 1)%nat with N by lia.
      unfold b2. rewrite !(ext_kn_old b 1 e W CL t1 (t2 b)) by (fold N; lia). lra. }
    pose proof (call_piece (mkS b2 (map y (seq 0 (N + 1)))) g (N - 1) (ext_sorted b 1 e W CL t1 (t2 b) E0) SZ A) as P.
    unfold call in P. cbn [sbasis coeffs] in P. change (degree b2) with d in P. rewrite Z in P.
    rewrite PE in P by (auto using ker_act; lia). symmetry. exact P.
  - assert (DN : (d <= N - 2)%nat).
    { destruct (le_lt_dec d (N - 2)) as [Q|Q]; [exact Q|]. exfalso. assert (N - 1 = d)%nat as EN by lia.
      rewrite EN in TP. destruct CL as [C1 _]. fold d in C1. destruct W as [ND LE].
      pose proof (ND 0%nat (N - 2)%nat ltac:(lia) ltac:(rewrite TL; lia)). unfold kn in TP. lra. }
    assert (AI : actint b2 (N - 2)).
    { split; [exact DN|]. change (degree b2) with d. unfold b2. rewrite (ext_len2 b 1 e W CL t1 (t2 b)). fold d N.
      split; [lia|]. rewrite !(ext_kn_old b 1 e W CL t1 (t2 b)) by (fold N; lia).
      replace (N - 2 + 1)%nat with (N - 1)%nat by lia. exact TP. }
    assert (A : active b2 g (N - 2)).
    { apply active_inside; [apply AI|apply AI|]. replace (N - 2 + 1)%nat with (N - 1)%nat by lia.
      unfold b2. rewrite !(ext_kn_old b 1 e W CL t1 (t2 b)) by (fold N; lia). lra. }
    pose proof (call_piece (mkS b2 (map y (seq 0 (N + 1)))) g (N - 2) (ext_sorted b 1 e W CL t1 (t2 b) E0) SZ A) as P.
    unfold call in P. cbn [sbasis coeffs] in P. change (degree b2) with d in P. rewrite Z in P.
    rewrite PE in P by (auto using AI; lia).
    destruct (joins_pieces b2 y (ext_sorted b 1 e W CL t1 (t2 b) E0)) as [_ J2]. change (degree b2) with d in J2.
    unfold F. rewrite P. symmetry. replace (N - 1)%nat with (N - 2 + 1)%nat by lia.
    fold d in D1. replace d with (S (d - 1)) at 2 4 by lia.
    change (repeat g (S (d - 1))) with (repeat g 1 ++ repeat g (d - 1)).
    apply J2; [|rewrite repeat_length; lia].
    split; [exact AI|]. split; [replace (N - 2 + 1)%nat with (N - 1)%nat by lia; apply ker_act|]. split; [lia|].
    intros j Hj. replace j with (N - 1)%nat by lia. unfold b2. rewrite (ext_kn_old b 1 e W CL t1 (t2 b)) by (fold N; lia). lra.
Qed.

Lemma ker_first : forall q, (q < d)%nat -> nth q x 0 = 0.
Proof.
  pose proof tot_N as TN. pose proof tot_len as TL. pose proof tot_last as TLa. pose proof tot_prev as [TP0 TP].
  pose proof ker_sa as SA.
  assert (LG : length gs = d) by (unfold gs; rewrite map_length, seq_length; reflexivity).
  destruct (form_roots d F gs SA LG gs_nodup ker_roots) as [al HA].
  assert (AP : actpos d (kn b2) (N - 1)).
  { apply (actint_pos b2); [apply (ext_sorted b 1 e W CL t1 (t2 b) E0)|apply ker_act]. }
  assert (DUAL : forall a, (N - 1 - d <= a <= N - 1)%nat -> F (map (kn b2) (seq (S a) d)) = y a).
  { intros a Ha. apply piece_dual; [lia|exact AP|exact Ha]. }
  set (us := map (kn b2) (seq (S (N - 1 - d)) d)).
  assert (Z : F us = 0).
  { unfold us. rewrite DUAL by lia. unfold y. rewrite (proj2 (Nat.leb_gt _ (N - 1 - d))) by lia. reflexivity. }
  rewrite HA in Z by (unfold us; rewrite map_length, seq_length; reflexivity).
  assert (NZ : rootform gs us <> 0).
  { fold d in D1.
    assert (EG : gs = nth (N - d + 0) (greville b) 0 :: map (fun i => nth (N - d + i) (greville b) 0) (seq 1 (d - 1))).
    { unfold gs. assert (ES : seq 0 d = 0%nat :: seq 1 (d - 1)) by (rewrite cons_seq; f_equal; lia).
      rewrite ES. reflexivity. }
    rewrite EG.
    apply (rootform_nonzero _ _ _ (last_inner b)).
    - unfold us. rewrite !map_length, !seq_length. lia.
    - intros u I. unfold us in I. apply in_map_iff in I. destruct I as [k [Ek Hk]]. apply in_seq in Hk. subst u.
      unfold b2. rewrite (ext_kn_old b 1 e W CL t1 (t2 b)) by (fold N; lia). rewrite TLa. destruct W as [ND LE].
      unfold kn. apply ND; lia.
    - rewrite Nat.add_0_r. exact GV.
    - intros g I. apply in_map_iff in I. destruct I as [k [Ek Hk]]. apply in_seq in Hk. subst g.
      apply Rle_lt_trans with (1 := GV). apply grev_mono; lia.
    - rewrite Nat.add_0_r. destruct (Nat.eq_dec d 1) as [Ed|Ed].
      + exists (kn b2 (N - 1)). split.
        * unfold us. apply in_map. apply in_seq. lia.
        * unfold b2. rewrite (ext_kn_old b 1 e W CL t1 (t2 b)) by (fold N; lia).
          rewrite greville_nth by (fold N; lia). fold d. rewrite Ed. simpl.
          pose proof (ext_step b 1 W CL t1 (t2 b)) as ES. fold N in ES.
          replace (N - 1 + 1 + 0)%nat with N by lia. lra.
      + exists (kn b2 (N - 2)). split.
        * unfold us. apply in_map. apply in_seq. lia.
        * unfold b2. rewrite (ext_kn_old b 1 e W CL t1 (t2 b)) by (fold N; lia). lra. }
  assert (al = 0) as A0 by (apply Rmult_integral in Z; destruct Z as [Z|Z]; [exact Z|contradiction]).
  intros q Hq. pose proof (DUAL (N - d + q)%nat ltac:(lia)) as D.
  rewrite HA in D by (rewrite map_length, seq_length; reflexivity). rewrite A0, Rmult_0_l in D.
  unfold y in D. rewrite (proj2 (Nat.leb_le _ (N - d + q))) in D by lia.
  rewrite (proj2 (Nat.ltb_lt (N - d + q) _)) in D by lia. simpl in D.
  replace (N - d + q - (N - d))%nat with q in D by lia. symmetry. exact D.
Qed.

Lemma ker_zero : x = repeat 0 (d + 1).
Proof.
  pose proof tot_N as TN. pose proof tot_len as TL.
  assert (LAST : nth d x 0 = 0).
  { pose proof (KER d ltac:(lia)) as K. unfold extra_A in K. fold d N b2 in K.
    replace (d + 1 - 1)%nat with d in K by lia. rewrite Nat.ltb_irrefl in K.
    fold d in D1. destruct (Nat.eqb_spec d 0) as [Q|_]; [lia|].
    rewrite dot_rsum in K by (rewrite map_length, seq_length, LX; reflexivity).
    rewrite map_length, seq_length in K.
    rewrite (rsum_ext _ _ (fun q => diff_stages b2 (N + 1) d 0%nat q * nth q x 0)) in K
      by (intros q Hq; rewrite nth_map_seq by exact Hq; reflexivity).
    change (DV b2 (N + 1) d (fun q => nth q x 0) 0 = 0) in K.
    destruct (DV_top b2 (N + 1) (fun q => nth q x 0)) with (i := d) (j := 0%nat) as [_ T].
    - change (degree b2) with d. lia.
    - intros j i H. change (degree b2) with d in H |- *. unfold b2.
      rewrite (ext_kn_new b 1 e W CL t1 (t2 b) (j + (N + 1))) by (fold d N; lia).
      pose proof (ext_le b 1 e W CL t1 (t2 b) (j + (N + 1) + i - d) ltac:(fold N; lia)) as P. fold N in P |- *. lra.
    - change (degree b2) with d. apply ker_first.
    - change (degree b2) with d. lia.
    - change (degree b2) with d in T. destruct (T eq_refl) as [f [F1 F2]]. rewrite F2 in K.
      apply Rmult_integral in K. destruct K as [K|K]; [lra|exact K]. }
  apply (nth_ext _ _ 0 0); [rewrite repeat_length; exact LX|]. intros i Hi. rewrite LX in Hi.
  rewrite nth_repeat_lt by exact Hi. destruct (Nat.eq_dec i d) as [->|NE]; [exact LAST|]. apply ker_first. lia.
Qed.
End Ker.

Lemma extra_total : forall tol, exists cols, extra_cols tol b 1 e = Some cols.
Proof.
  intros tol. unfold extra_cols. apply oall_map_some. intros q _.
  match goal with |- context [gsolve ?n ?r] => destruct (gsolve_total n r) as [x G] end.
  - rewrite map_length, seq_length. reflexivity.
  - intros r I. apply in_map_iff in I. destruct I as [i [<- _]]. cbn [fst]. apply extra_A_length; auto using t1, (t2 b).
  - intros x LX KER. apply ker_zero; [exact LX|]. intros i Hi. apply KER. rewrite map_map. cbn [fst].
    apply (in_map (fun i => extra_A b 1 e i)). apply in_seq. fold d. lia.
  - rewrite G. eexists. reflexivity.
Qed.
End Tot.
