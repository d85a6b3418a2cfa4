(** Rational splines: where division, derivative and knot insertion fail. *)
From Coq Require Import Reals Lra Lia List Arith Bool ZArith.
From Verif Require Import Blossom Spline_Model Spline_Spec Spline_Proofs Spline_Proofs2 Spline_Proofs3 Splop_Model Splop_Spec Span_Proofs Span_Proofs2 Splop_Proofs
  Splop_Proofs2 Splop_Proofs3 Splop_Proofs4 Obst_Model Trip_Proofs Nurbs_Model Nurbs_Spec Nurbs_Proofs Nurbs_Proofs2.
Import ListNotations.
Local Open Scope R_scope.

Definition tent : bbasis := mkB [0; 0; 1/2; 1; 1] 1.
Ltac cases := repeat match goal with
  | |- context [Rle_dec ?a ?b] => destruct (Rle_dec a b); try lra
  | |- context [Rlt_dec ?a ?b] => destruct (Rlt_dec a b); try lra
  | |- context [Req_EM_T ?a ?b] => destruct (Req_EM_T a b); try lra end.
Lemma tent_left : forall x, 0 <= x <= 1/2 -> eval_basis tent x = [1 - 2 * x; 2 * x; 0].
Proof.
  intros x X. unfold eval_basis, tent. cbn [degree basis_row]. unfold next_row, ind, kn. cbn [knots degree length Nat.sub seq map Nat.add nth Nat.ltb Nat.leb andb].
  unfold b2R, Reqb, Rleb, Rltb. cases; cbn [andb nth]; cases; cbn [andb nth]; repeat (apply f_equal2; [field_simplify; lra|]); reflexivity.
Qed.
Lemma tent_right : forall x, 1/2 <= x <= 1 -> eval_basis tent x = [0; 2 - 2 * x; 2 * x - 1].
Proof.
  intros x X. unfold eval_basis, tent. cbn [degree basis_row]. unfold next_row, ind, kn. cbn [knots degree length Nat.sub seq map Nat.add nth Nat.ltb Nat.leb andb].
  unfold b2R, Reqb, Rleb, Rltb. cases; cbn [andb nth]; cases; cbn [andb nth]; repeat (apply f_equal2; [field_simplify; lra|]); reflexivity.
Qed.
Lemma tent_sorted : nondecreasing (knots tent).
Proof. apply nondecreasing_bool. intros i H. cbn in H. do 4 (destruct i as [|i]; [cbn; lra|]). lia. Qed.
Lemma tent_clamped : clamped_on tent 0 1.
Proof.
  split; [split; [apply tent_sorted|cbn; lia]|]. split; [|cbn; auto]. unfold clamped. cbn. repeat split; lra.
Qed.
Lemma tent_cnt : forall t, cnt (knots tent) t = if Req_EM_T 0 t then 2%nat else if Req_EM_T (1/2) t then 1%nat else if Req_EM_T 1 t then 2%nat else 0%nat.
Proof. intros t. unfold cnt, tent. cbn [knots count_occ]. repeat destruct (Req_EM_T _ _); auto; try lra. Qed.

Lemma cont_left : forall f a c, continuity_pt f c -> a < c -> (forall x, a < x < c -> f x = 0) -> f c = 0.
Proof.
  intros f a c C A Z. destruct (Req_dec (f c) 0) as [E|E]; auto. exfalso.
  destruct (C (Rabs (f c)) ltac:(now apply Rabs_pos_lt)) as (d & D & H).
  set (h := Rmin (d / 2) ((c - a) / 2)). assert (h <= d / 2) by apply Rmin_l. assert (h <= (c - a) / 2) by apply Rmin_r.
  assert (0 < h) by (apply Rmin_glb_lt; lra).
  assert (K := H (c - h)). unfold D_x, no_cond, dist in K. cbn in K. unfold R_dist in K.
  rewrite (Z (c - h)) in K by lra. rewrite Rminus_0_l, Rabs_Ropp in K.
  replace (c - h - c) with (- h) in K by ring. rewrite Rabs_Ropp, (Rabs_right h) in K by lra. 
  assert (L : Rabs (f c) < Rabs (f c)) by (apply K; repeat split; lra). lra.
Qed.
Lemma cont_right : forall f a c, continuity_pt f c -> c < a -> (forall x, c < x < a -> f x = 0) -> f c = 0.
Proof.
  intros f a c C A Z. destruct (Req_dec (f c) 0) as [E|E]; auto. exfalso.
  destruct (C (Rabs (f c)) ltac:(now apply Rabs_pos_lt)) as (d & D & H).
  set (h := Rmin (d / 2) ((a - c) / 2)). assert (h <= d / 2) by apply Rmin_l. assert (h <= (a - c) / 2) by apply Rmin_r.
  assert (0 < h) by (apply Rmin_glb_lt; lra).
  assert (K := H (c + h)). unfold D_x, no_cond, dist in K. cbn in K. unfold R_dist in K.
  rewrite (Z (c + h)) in K by lra. rewrite Rminus_0_l, Rabs_Ropp in K.
  replace (c + h - c) with h in K by ring. rewrite (Rabs_right h) in K by lra.
  assert (L : Rabs (f c) < Rabs (f c)) by (apply K; repeat split; lra). lra.
Qed.

(** the hat function, written as a rational spline with all weights one *)
Definition hat : nurbs := mkN tent [1; 1; 1] [0; 1; 0].
Lemma hat_left : forall x, 0 <= x <= 1/2 -> ncall hat x = 2 * x.
Proof. intros x X. unfold ncall, nurbs_row, times2, hat. cbn [nbasis weights ncoeffs]. rewrite tent_left by exact X. cbn. field. lra. Qed.
Lemma hat_right : forall x, 1/2 <= x <= 1 -> ncall hat x = 2 - 2 * x.
Proof. intros x X. unfold ncall, nurbs_row, times2, hat. cbn [nbasis weights ncoeffs]. rewrite tent_right by exact X. cbn. field. lra. Qed.
Lemma local_deriv : forall f g a b x l, a < x < b -> (forall y, a < y < b -> f y = g y) -> derivable_pt_lim g x l -> derivable_pt_lim f x l.
Proof.
  intros f g a b x l X E D eps HE. destruct (D eps HE) as (d & H).
  assert (P : 0 < Rmin d (Rmin (x - a) (b - x))). { repeat apply Rmin_glb_lt; try lra. apply cond_pos. }
  exists (mkposreal _ P). intros h H0 H1. cbn in H1. pose proof (Rmin_l d (Rmin (x - a) (b - x))). pose proof (Rmin_r d (Rmin (x - a) (b - x))).
  pose proof (Rmin_l (x - a) (b - x)). pose proof (Rmin_r (x - a) (b - x)).
  assert (- (Rmin d (Rmin (x - a) (b - x))) < h < Rmin d (Rmin (x - a) (b - x))) by (apply Rabs_def2 in H1; lra).
  rewrite !E by lra. apply H; auto. lra.
Qed.
Lemma lin_deriv : forall a b x, derivable_pt_lim (fun y => a + b * y) x b.
Proof. intros a b x eps HE. exists (mkposreal 1 Rlt_0_1). intros h H0 _.
  replace ((a + b * (x + h) - (a + b * x)) / h - b) with 0 by (field; exact H0). rewrite Rabs_R0. exact HE. Qed.

Lemma nderiv_shape : forall tol n n', nderiv tol n = Some n' -> nsized n' /\ exists d2, mul_spline tol (den n) (den n) = Some d2 /\ den n' = d2.
Proof.
  intros tol n n' E. unfold nderiv in E. destruct (pow_spline tol (den n) 2) as [d2|] eqn:E2; [|discriminate].
  assert (EM : mul_spline tol (den n) (den n) = Some d2).
  { change (pow_spline tol (den n) 2) with (match mul_spline tol (den n) (den n) with None => None | Some a => Some a end) in E2.
    destruct (mul_spline tol (den n) (den n)); congruence. }
  destruct (transform tol (sbasis d2) _ _) as [T|]; [|discriminate].
  destruct (over _ _) as [c|] eqn:EO; [|discriminate]. injection E as <-.
  destruct (mul_spline_basis _ _ _ _ EM) as [B2 S2].
  apply over_spec in EO. 2:{ rewrite cols_dot_length. exact (eq_sym S2). } destruct EO as (LCC & _).
  split. { split; cbn [weights ncoeffs nbasis]; [exact S2|]. rewrite LCC. exact S2. }
  exists d2. split; auto. unfold den. cbn. destruct d2; reflexivity.
Qed.
Theorem nderiv_refuted : forall tol, 0 <= tol < 1/10 -> nsized hat /\ clamped_on (nbasis hat) 0 1 /\ (forall w, In w (weights hat) -> w = 1) /\
  ~ exists n', nderiv tol hat = Some n' /\ forall x, 0 < x < 1 -> x <> 1/2 -> derivable_pt_lim (ncall hat) x (ncall n' x).
Proof.
  intros tol HT. split; [split; reflexivity|]. split; [apply tent_clamped|]. split. { cbn. intuition. }
  intros (n' & E & H). destruct (nderiv_shape _ _ _ E) as (SZ & d2 & EM & ED).
  destruct (num_sized hat ltac:(split; reflexivity)) as [_ SD]. destruct (num_sized n' SZ) as [SN' SD'].
  assert (C2 := mul_clamped tol (den hat) (den hat) d2 0 1 tent_clamped tent_clamped EM).
  assert (B : nbasis n' = sbasis d2) by (rewrite <- ED; reflexivity).
  destruct (mul_spline_basis _ _ _ _ EM) as [B2 _]. cbn [den sbasis hat nbasis] in B2.
  assert (M : mult_le (nbasis n') (1/2) (degree (nbasis n'))).
  { rewrite B. apply mult_le_cnt; [apply C2|]. rewrite B2. unfold basis_mul. rewrite combine_mult by (cbn; lia). rewrite combine_degree, !tent_cnt.
    repeat destruct (Req_EM_T _ _); try lra; cbn; lia. }
  destruct (clamped_dom _ _ _ C2) as [DL DR]. rewrite <- B in DL, DR. assert (WF : well_formed (nbasis n')) by (rewrite B; apply C2).
  assert (K1 : continuity_pt (call (num n')) (1/2)) by (apply call_continuous; auto; cbn [num sbasis]; lra).
  assert (K2 : continuity_pt (call (den n')) (1/2)) by (apply call_continuous; auto; cbn [den sbasis]; lra).
  assert (Q : forall p q r : R, r <> 0 -> p / q = r -> p = r * q).
  { intros p q r R0 PQ. destruct (Req_dec q 0) as [->|N]; [unfold Rdiv in PQ; rewrite Rinv_0 in PQ; lra|]. rewrite <- PQ. field. exact N. }
  assert (L : forall x, 0 < x < 1/2 -> call (num n') x = 2 * call (den n') x).
  { intros x X. apply Q; [lra|]. rewrite <- ncall_ratio by exact SZ. apply (uniqueness_limite (ncall hat) x); [apply H; lra|].
    apply (local_deriv _ (fun y => 0 + 2 * y) 0 (1/2)); [lra| |apply lin_deriv]. intros y Y. rewrite hat_left by lra. ring. }
  assert (R' : forall x, 1/2 < x < 1 -> call (num n') x = - 2 * call (den n') x).
  { intros x X. apply Q; [lra|]. rewrite <- ncall_ratio by exact SZ. apply (uniqueness_limite (ncall hat) x); [apply H; lra|].
    apply (local_deriv _ (fun y => 2 + (- 2) * y) (1/2) 1); [lra| |apply lin_deriv]. intros y Y. rewrite hat_right by lra. ring. }
  assert (Z1 : (fun x => call (num n') x - 2 * call (den n') x) (1/2) = 0).
  { apply (cont_left (fun x => call (num n') x - 2 * call (den n') x) 0); [|lra|intros x X; rewrite L by exact X; ring].
    apply (continuity_pt_minus (call (num n')) (fun x => 2 * call (den n') x)); auto.
    apply (continuity_pt_mult (fun _ => 2) (call (den n'))); auto. apply continuity_pt_const. intros u v. reflexivity. }
  assert (Z2 : (fun x => call (num n') x - (- 2) * call (den n') x) (1/2) = 0).
  { apply (cont_right (fun x => call (num n') x - (- 2) * call (den n') x) 1); [|lra|intros x X; rewrite R' by exact X; ring].
    apply (continuity_pt_minus (call (num n')) (fun x => (- 2) * call (den n') x)); auto.
    apply (continuity_pt_mult (fun _ => - 2) (call (den n'))); auto. apply continuity_pt_const. intros u v. reflexivity. }
  cbv beta in Z1, Z2. assert (Z : call (den n') (1/2) = 0) by lra.
  pose proof (mul_close_size tol (den hat) (den hat) d2 0 1 (1/2) ltac:(lra) tent_clamped tent_clamped SD SD EM) as MC.
  rewrite <- ED, Z in MC. unfold call in MC. cbn [den hat sbasis coeffs nbasis weights] in MC. rewrite tent_left in MC by lra. cbn [dot size_of fold_right] in MC.
  rewrite Rabs_R1 in MC. unfold Rabs in MC. destruct (Rcase_abs _); lra.
Qed.

(** knot insertion *)
Lemma transform_inj : forall tol b other w T y1 y2, transform tol b other w = Some T -> (0 < w)%nat ->
  length y1 = blen b -> length y2 = blen b -> (forall r, In r (colloc b) -> dot r y1 = dot r y2) -> y1 = y2.
Proof.
  intros tol b other w T y1 y2 E W L1 L2 H. unfold transform in E. destruct w as [|w]; [lia|]. cbn [seq map oall] in E.
  set (rows := combine _ _) in E. destruct (gsolve (blen b) rows) as [x|] eqn:G; [|discriminate].
  assert (RL : forall r, In r rows -> length (fst r) = blen b).
  { intros r I. unfold rows in I. destruct r as [r v]. apply in_combine_l in I. cbn. now apply colloc_len. }
  destruct (gsolve_spec (blen b) rows x RL G) as [LX U].
  set (z := map (fun p => fst p + snd p) (combine x (map (fun p => fst p - snd p) (combine y1 y2)))).
  assert (LD : length (map (fun p => fst p - snd p) (combine y1 y2)) = blen b) by (rewrite map_length, combine_length; lia).
  assert (LZ : length z = blen b) by (unfold z; rewrite map_length, combine_length; lia).
  assert (FX : Forall (holds_row x) rows) by (apply U; auto).
  assert (z = x).
  { apply U; auto. rewrite Forall_forall in *. intros r I. specialize (FX r I). unfold holds_row in *. rewrite <- FX. unfold z.
    rewrite dot_sum2 by lia. rewrite <- dot_minus by lia. rewrite (H (fst r)); [lra|]. unfold rows in I. destruct r as [r v]. now apply in_combine_l in I. }
  assert (DZ : forall i, (i < blen b)%nat -> nth i y1 0 = nth i y2 0).
  { intros i I. assert (N : nth i z 0 = nth i x 0) by congruence. unfold z in N.
    rewrite (nth_map_d _ _ _ _ (0, 0)) in N by (rewrite combine_length; lia). rewrite combine_nth in N by lia. cbn [fst snd] in N.
    rewrite (nth_map_d _ _ _ _ (0, 0)) in N by (rewrite combine_length; lia). rewrite combine_nth in N by lia. cbn [fst snd] in N. lra. }
  apply (nth_ext _ _ 0 0); [lia|]. intros i I. apply DZ. lia.
Qed.
Lemma colloc_range : forall b lo hi r, clamped_on b lo hi -> In r (colloc b) -> exists x, lo <= x <= hi /\ r = eval_basis b x.
Proof.
  intros b lo hi r C I. unfold colloc in I. apply in_map_iff in I. destruct I as (j & <- & _).
  exists (grid_pt b (maxpos b j)). split; auto. apply grid_range; auto. apply maxpos_lt.
Qed.
Lemma times2_repeat : forall c a, times2 c (repeat a (length c)) = map (fun v => a * v) c.
Proof. unfold times2. induction c as [|v c IH]; intros a; cbn; auto. rewrite IH. f_equal. ring. Qed.
Theorem ninsert_even : forall n ts n' lo hi a x, nsized n -> clamped_on (nbasis n) lo hi -> (forall t, In t ts -> lo <= t <= hi) ->
  weights n = repeat a (blen (nbasis n)) -> a <> 0 -> ninsert 0 n ts = Some n' -> lo <= x <= hi -> ncall n' x = ncall n x.
Proof.
  intros n ts n' lo hi a x SZ C TS W A E X. unfold ninsert in E. set (b := insert_knots_basis (nbasis n) ts) in *.
  destruct (transform_basis 0 b (nbasis n)) as [T|] eqn:ET; [|discriminate]. injection E as <-.
  assert (Cb : clamped_on b lo hi) by (apply insert_knots_clamped; auto).
  assert (KK : keeps_knots b (nbasis n) lo hi (degree b - degree (nbasis n))).
  { intros t T0 M. unfold mult. fold (cnt (knots (nbasis n)) t) (cnt (knots b) t). unfold b. rewrite insert_knots_cnt.
    unfold mult in M. fold (cnt (knots (nbasis n)) t) in M. destruct (Nat.eqb_spec (cnt (knots (nbasis n)) t) 0); [lia|]. cbn. lia. }
  assert (TC : forall s y, sbasis s = nbasis n -> sized s -> lo <= y <= hi -> dot (eval_basis b y) (cols_dot (blen b) T (coeffs s)) = call s y).
  { intros s y SB SS Y. apply close_0. rewrite <- (Rmult_0_l (size_of (coeffs s))).
    apply (transform_call 0 b s T lo hi); auto; try lra; rewrite SB; auto. }
  assert (PB : (0 < blen (nbasis n))%nat).
  { destruct C as ((_ & L) & _). unfold blen. lia. }
  destruct (num_sized n SZ) as [_ SD].
  assert (WN : cols_dot (blen b) T (weights n) = repeat a (blen b)).
  { apply (transform_inj 0 b _ _ T _ _ ET PB (cols_dot_length _ _ _) (repeat_length _ _)).
    intros r I. destruct (colloc_range b lo hi r Cb I) as (y & Y & ->).
    change (weights n) with (coeffs (den n)). rewrite (TC (den n) y); auto. unfold call, den. cbn [sbasis coeffs]. rewrite W.
    assert (RC : forall bb, clamped_on bb lo hi -> dot (eval_basis bb y) (repeat a (blen bb)) = a).
    { intros bb CC. rewrite <- (blen_eval bb y). assert (P := partition_of_unity bb y ltac:(apply CC) (clamped_in bb lo hi y CC Y)).
      replace (repeat a (length (eval_basis bb y))) with (map (fun c => a * c) (repeat 1 (length (eval_basis bb y)))).
      - rewrite dot_scal, dot_repeat1, P. ring.
      - generalize (length (eval_basis bb y)). induction n0 as [|k IH]; cbn; auto. rewrite IH. f_equal. ring. }
    rewrite !RC; auto. }
  rewrite WN. rewrite !ncall_ratio; auto.
  2:{ split; cbn; [apply repeat_length|apply cols_dot_length]. }
  assert (V : forall bb c, clamped_on bb lo hi -> length c = blen bb ->
     call (num (mkN bb (repeat a (blen bb)) c)) x / call (den (mkN bb (repeat a (blen bb)) c)) x = call (mkS bb c) x).
  { intros bb c CC LC. unfold num, den. cbn [nbasis weights ncoeffs]. replace (times2 c (repeat a (blen bb))) with (map (fun v => a * v) c) by (rewrite <- LC; symmetry; apply times2_repeat).
    change (mkS bb (map (fun v => a * v) c)) with (mul_num (mkS bb c) a). rewrite mul_num_call.
    assert (P := partition_of_unity bb x ltac:(apply CC) (clamped_in bb lo hi x CC X)).
    assert (D1 : call (mkS bb (repeat a (blen bb))) x = a).
    { unfold call. cbn [sbasis coeffs]. rewrite <- (blen_eval bb x).
      replace (repeat a (length (eval_basis bb x))) with (map (fun c => a * c) (repeat 1 (length (eval_basis bb x)))).
      - rewrite dot_scal, dot_repeat1, P. ring.
      - generalize (length (eval_basis bb x)). induction n0 as [|k IH]; cbn; auto. rewrite IH. f_equal. ring. }
    rewrite D1. field. exact A. }
  rewrite V; [|exact Cb|apply cols_dot_length]. destruct SZ as [LW LC].
  replace n with (mkN (nbasis n) (repeat a (blen (nbasis n))) (ncoeffs n)) at 2 3 by (rewrite <- W; destruct n; reflexivity).
  rewrite V; auto. unfold call at 1. cbn [sbasis coeffs]. apply (TC (mkS (nbasis n) (ncoeffs n))); auto.
Qed.
