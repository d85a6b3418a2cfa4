(** Bernstein polynomials: values, uniqueness, and the system of equations
    behind sums and products. *)
From Coq Require Import Reals List Arith Bool ZArith Lia Lra.
From Verif Require Import Spline_Model Spline_Spec Spline_Proofs Splop_Model Splop_Spec Splop_Proofs Splop_Proofs2 Splop_Proofs4 Vehicle_Model Bern_Spec.
Import ListNotations.
Local Open Scope R_scope.

Lemma bern_kn : forall d i, (i < 2 * d + 2)%nat -> kn (bern d) i = if (i <=? d)%nat then 0 else 1.
Proof.
  intros d i Hi. unfold kn, bern. cbn [knots].
  destruct (Nat.leb_spec i d) as [H|H].
  - rewrite app_nth1 by (rewrite repeat_length; lia). apply nth_repeat.
  - rewrite app_nth2 by (rewrite repeat_length; lia). rewrite repeat_length.
    assert (G : forall b a, (a < b)%nat -> nth a (repeat 1 b) 0 = 1).
    { induction b as [|b IH]; intros [|a] L; cbn; try lia; [reflexivity|apply IH; lia]. }
    apply G. lia.
Qed.
Lemma bern_knots : forall d, length (knots (bern d)) = (2 * d + 2)%nat.
Proof. intros d. cbn [bern knots]. rewrite app_length, !repeat_length. lia. Qed.
Lemma bern_blen : forall d, blen (bern d) = S d.
Proof. intros d. unfold blen. rewrite bern_knots. cbn [bern degree]. lia. Qed.

Fixpoint bp (d j : nat) (x : R) : R :=
  match d with
  | O => match j with O => 1 | _ => 0 end
  | S e => (match j with O => 0 | S i => x * bp e i x end) + (1 - x) * bp e j x
  end.
Lemma bp_high : forall d j x, (d < j)%nat -> bp d j x = 0.
Proof.
  induction d as [|d IH]; intros [|j] x H; try lia; [reflexivity|].
  cbn [bp]. rewrite !IH by lia. ring.
Qed.

Lemma Reqb_refl : forall a, Reqb a a = true.
Proof. intros a. unfold Reqb. destruct (Req_EM_T a a); congruence. Qed.
Lemma Reqb_01 : Reqb (1 - 0) 0 = false.
Proof. unfold Reqb. destruct (Req_EM_T (1 - 0) 0); [lra|reflexivity]. Qed.
Lemma Reqb_d0 : forall a, Reqb (a - a) 0 = true.
Proof. intros a. unfold Reqb. destruct (Req_EM_T (a - a) 0); [reflexivity|lra]. Qed.

Lemma row_bern : forall d x e, 0 <= x <= 1 -> (e <= d)%nat -> forall j, (j <= e)%nat ->
  nth (d - e + j) (basis_row (bern d) x e) 0 = bp e j x.
Proof.
  intros d x e Ix. induction e as [|e IH]; intros He j Hj.
  - assert (j = 0%nat) by lia. subst j. cbn [basis_row bp].
    rewrite (nth_indep _ 0 (ind (bern d) 0 x * 1)) by (rewrite map_length, seq_length, bern_knots; lia).
    rewrite (map_nth (fun i => ind (bern d) i x * 1)), seq_nth by (rewrite bern_knots; lia).
    replace (0 + (d - 0 + 0))%nat with d by lia. unfold ind. cbn [bern degree].
    replace (d <? d + 1)%nat with true by (symmetry; apply Nat.ltb_lt; lia).
    fold (bern d). rewrite !bern_kn by lia.
    replace (d <=? d)%nat with true by (symmetry; apply Nat.leb_le; lia).
    replace (d + 1 <=? d)%nat with false by (symmetry; apply Nat.leb_gt; lia).
    cbn [Nat.leb]. rewrite Reqb_refl. cbn [andb].
    rewrite (proj2 (Rleb_true 0 x)), (proj2 (Rleb_true x 1)) by lra. cbn. ring.
  - cbn [basis_row]. unfold next_row.
    set (prev := basis_row (bern d) x e) in *. set (F := fun i : nat => _).
    rewrite (nth_indep _ 0 (F 0%nat)) by (rewrite map_length, seq_length, bern_knots; lia).
    rewrite (map_nth F), seq_nth by (rewrite bern_knots; lia).
    set (i := (0 + (d - S e + j))%nat). unfold F.
    rewrite !bern_kn by (unfold i; lia).
    assert (I0 : (i <=? d)%nat = true) by (apply Nat.leb_le; unfold i; lia). rewrite I0.
    assert (I1 : (i + S e + 1 <=? d)%nat = false) by (apply Nat.leb_gt; unfold i; lia). rewrite I1.
    assert (A : (if Reqb ((if (i + S e <=? d)%nat then 0 else 1) - 0) 0 then 0 * x
                 else (x - 0) * nth i prev 0 / ((if (i + S e <=? d)%nat then 0 else 1) - 0))
                = match j with O => 0 | S k => x * bp e k x end).
    { destruct j as [|k].
      - replace (i + S e <=? d)%nat with true by (symmetry; apply Nat.leb_le; unfold i; lia). rewrite Reqb_d0. ring.
      - replace (i + S e <=? d)%nat with false by (symmetry; apply Nat.leb_gt; unfold i; lia). rewrite Reqb_01.
        replace i with (d - e + k)%nat by (unfold i; lia). rewrite IH by lia. field. }
    rewrite A. cbn [bp].
    destruct (Nat.leb_spec (i + 1) d) as [L|L].
    + rewrite Reqb_01. replace (i + 1)%nat with (d - e + j)%nat by (unfold i; lia). rewrite IH by (unfold i in L; lia). field.
    + rewrite Reqb_d0. rewrite (bp_high e j) by (unfold i in L; lia). ring.
Qed.
Lemma bern_eval : forall d x j, 0 <= x <= 1 -> (j <= d)%nat -> nth j (eval_basis (bern d) x) 0 = bp d j x.
Proof.
  intros d x j Ix Hj. unfold eval_basis. cbn [bern degree]. fold (bern d).
  pose proof (row_bern d x d Ix (Nat.le_refl d) j Hj) as E. rewrite Nat.sub_diag in E. exact E.
Qed.
Lemma bern_row : forall d x, 0 <= x <= 1 -> eval_basis (bern d) x = map (fun j => bp d j x) (seq 0 (S d)).
Proof.
  intros d x Ix. apply (nth_ext _ _ 0 (bp d 0 x)).
  - rewrite blen_eval, map_length, seq_length. apply bern_blen.
  - intros n Hn. rewrite blen_eval, bern_blen in Hn. rewrite bern_eval by (try exact Ix; lia).
    rewrite (map_nth (fun j => bp d j x)), seq_nth by lia. reflexivity.
Qed.

(** ** closed form *)
Fixpoint pc (d j : nat) : R :=
  match d with
  | O => match j with O => 1 | _ => 0 end
  | S e => (match j with O => 0 | S i => pc e i end) + pc e j
  end.
Lemma pc_nonneg : forall d j, 0 <= pc d j.
Proof.
  induction d as [|d IH]; intros [|j]; cbn [pc]; try lra; [pose proof (IH 0%nat)|pose proof (IH j); pose proof (IH (S j))]; lra.
Qed.
Lemma pc_pos : forall d j, (j <= d)%nat -> 0 < pc d j.
Proof.
  induction d as [|d IH]; intros [|j] H; cbn [pc]; try lra; try lia.
  - specialize (IH 0%nat ltac:(lia)). lra.
  - specialize (IH j ltac:(lia)). pose proof (pc_nonneg d (S j)). lra.
Qed.
Lemma pc_high : forall d j, (d < j)%nat -> pc d j = 0.
Proof. induction d as [|d IH]; intros [|j] H; try lia; [reflexivity|]. cbn [pc]. rewrite !IH by lia. ring. Qed.
Lemma bp_closed : forall d j x, (j <= d)%nat -> bp d j x = pc d j * x ^ j * (1 - x) ^ (d - j).
Proof.
  induction d as [|d IH]; intros [|j] x H; try lia; [cbn; ring| |].
  - cbn [bp pc]. rewrite IH by lia. rewrite !Nat.sub_0_r. cbn [pow]. ring.
  - cbn [bp pc]. rewrite IH by lia. destruct (Nat.eq_dec j d) as [->|N].
    + rewrite (bp_high d (S d)), (pc_high d (S d)) by lia. rewrite !Nat.sub_diag. cbn [pow]. ring.
    + rewrite IH by lia. replace (S d - S j)%nat with (S (d - S j)) by lia. replace (d - j)%nat with (S (d - S j)) by lia. cbn [pow]. ring.
Qed.

(** ** a polynomial with too many zeros *)
Fixpoint peval (l : list R) (w : R) : R := match l with [] => 0 | a :: r => a + w * peval r w end.
Fixpoint quot (l : list R) (r : R) : list R :=
  match l with [] => [] | _ :: t => match t with [] => [] | _ => peval t r :: quot t r end end.
Lemma quot_cons : forall a b l r, quot (a :: b :: l) r = peval (b :: l) r :: quot (b :: l) r.
Proof. reflexivity. Qed.
Lemma quot_length : forall l r, length (quot l r) = (length l - 1)%nat.
Proof. induction l as [|a [|b l] IH]; intros r; [reflexivity..|]. rewrite quot_cons. change (length (peval (b :: l) r :: quot (b :: l) r)) with (S (length (quot (b :: l) r))). rewrite IH. cbn [length]. lia. Qed.
Lemma quot_ok : forall l r w, peval l w = peval l r + (w - r) * peval (quot l r) w.
Proof.
  induction l as [|a [|b l] IH]; intros r w; [cbn; ring|cbn; ring|].
  rewrite quot_cons. specialize (IH r w).
  change (peval (a :: b :: l) w) with (a + w * peval (b :: l) w). change (peval (a :: b :: l) r) with (a + r * peval (b :: l) r).
  change (peval (peval (b :: l) r :: quot (b :: l) r) w) with (peval (b :: l) r + w * peval (quot (b :: l) r) w).
  rewrite IH. ring.
Qed.
Lemma quot_zero : forall l r, (forall a, In a (quot l r) -> a = 0) -> peval l r = 0 -> forall a, In a l -> a = 0.
Proof.
  induction l as [|a l IH]; intros r Z P b Hb; [destruct Hb|].
  destruct l as [|c l].
  - cbn in P. destruct Hb as [<-|[]]. lra.
  - rewrite quot_cons in Z. assert (E : peval (c :: l) r = 0) by (apply Z; left; reflexivity).
    destruct Hb as [<-|Hb].
    + change (peval (a :: c :: l) r) with (a + r * peval (c :: l) r) in P. rewrite E in P. lra.
    + apply (IH r); [intros x Hx; apply Z; right; exact Hx|exact E|exact Hb].
Qed.
Theorem too_many_zeros : forall ws l, NoDup ws -> (length l <= length ws)%nat -> (forall w, In w ws -> peval l w = 0) ->
  forall a, In a l -> a = 0.
Proof.
  induction ws as [|w ws IH]; intros l N L H a Ha.
  - destruct l; [destruct Ha|cbn in L; lia].
  - inversion N as [|? ? NI ND]; subst. apply (quot_zero l w); [|apply H; left; reflexivity|exact Ha].
    apply (IH (quot l w) ND); [rewrite quot_length; cbn in L; lia|].
    intros v Hv. assert (V : v <> w) by (intros ->; contradiction).
    pose proof (quot_ok l w v) as E. rewrite (H v), (H w) in E by (cbn; auto).
    apply (Rmult_eq_reg_l (v - w)); [lra|lra].
Qed.
Lemma peval_homog : forall l d k x, x <> 1 -> (length l + k = S d)%nat ->
  (1 - x) ^ d * (x / (1 - x)) ^ k * peval l (x / (1 - x)) =
  fold_right Rplus 0 (map (fun j => nth (j - k) l 0 * x ^ j * (1 - x) ^ (d - j)) (seq k (length l))).
Proof.
  induction l as [|a l IH]; intros d k x N L; [cbn; ring|].
  cbn [length seq map fold_right peval]. cbn [length] in L. rewrite Nat.sub_diag. cbn [nth].
  rewrite (map_ext_in _ (fun j => nth (j - S k) l 0 * x ^ j * (1 - x) ^ (d - j))).
  2:{ intros j Hj. apply in_seq in Hj. replace (j - k)%nat with (S (j - S k)) by lia. reflexivity. }
  rewrite <- (IH d (S k) x N) by lia. cbn [pow].
  assert (E : (1 - x) ^ d * (x / (1 - x)) ^ k = x ^ k * (1 - x) ^ (d - k)).
  { replace d with (k + (d - k))%nat at 1 by lia. rewrite pow_add.
    replace ((1 - x) ^ k * (1 - x) ^ (d - k) * (x / (1 - x)) ^ k) with ((1 - x) ^ k * (x / (1 - x)) ^ k * (1 - x) ^ (d - k)) by ring.
    rewrite <- Rpow_mult_distr. replace ((1 - x) * (x / (1 - x))) with x by (field; lra). reflexivity. }
  transitivity ((1 - x) ^ d * (x / (1 - x)) ^ k * a + (1 - x) ^ d * (x / (1 - x) * (x / (1 - x)) ^ k) * peval l (x / (1 - x))); [ring|].
  rewrite E. ring.
Qed.

Lemma dot_bern : forall d x y, 0 <= x <= 1 -> length y = S d ->
  dot (eval_basis (bern d) x) y = fold_right Rplus 0 (map (fun j => nth j y 0 * bp d j x) (seq 0 (S d))).
Proof.
  intros d x y Ix L. rewrite bern_row by exact Ix. rewrite <- L.
  assert (G : forall (f : nat -> R) y k, dot (map f (seq k (length y))) y = fold_right Rplus 0 (map (fun j => nth (j - k) y 0 * f j) (seq k (length y)))).
  { intros f. induction y0 as [|a z IH]; intros k; [reflexivity|]. cbn [length seq map dot fold_right]. rewrite Nat.sub_diag. cbn [nth].
    rewrite IH. f_equal; [ring|]. f_equal. apply map_ext_in. intros j Hj. apply in_seq in Hj.
    replace (j - k)%nat with (S (j - S k)) by lia. reflexivity. }
  rewrite G. f_equal. apply map_ext. intros j. rewrite Nat.sub_0_r. reflexivity.
Qed.

Lemma nth_map0 : forall (l : list R) (f : nat -> R) n, (n < length l)%nat ->
  nth n (map (fun j => f j * nth j l 0) (seq 0 (length l))) 0 = f n * nth n l 0.
Proof.
  intros l f n H. rewrite (nth_indep _ 0 (f 0%nat * nth 0 l 0)) by (rewrite map_length, seq_length; exact H).
  rewrite (map_nth (fun j => f j * nth j l 0)), seq_nth by exact H. reflexivity.
Qed.

Lemma in_seq_last : forall (f : nat -> R) n, map f (seq 0 (S n)) = map f (seq 0 n) ++ [f n].
Proof. intros f n. rewrite seq_S, map_app. reflexivity. Qed.
Lemma fold_app1 : forall l a, fold_right Rplus 0 (l ++ [a]) = fold_right Rplus 0 l + a.
Proof. induction l as [|b l IH]; intros a; cbn; [ring|rewrite IH; ring]. Qed.
Lemma fold_zero : forall l, (forall a, In a l -> a = 0) -> fold_right Rplus 0 l = 0.
Proof. induction l as [|a l IH]; intros H; [reflexivity|]. cbn [fold_right]. rewrite (H a), IH; [ring|intros b Hb; apply H; right; exact Hb|left; reflexivity]. Qed.

(** the coefficients follow from the values at d + 1 points, one of them 1 *)
Theorem bern_unique : forall d xs y, length y = S d -> NoDup xs -> (length xs = d)%nat ->
  (forall x, In x xs -> 0 <= x < 1) ->
  (forall x, In x xs \/ x = 1 -> dot (eval_basis (bern d) x) y = 0) -> forall a, In a y -> a = 0.
Proof.
  intros d xs y L N Lx Ix H.
  assert (Yd : nth d y 0 = 0).
  { specialize (H 1 (or_intror eq_refl)). rewrite dot_bern in H by first [exact L | split; lra]. rewrite in_seq_last, fold_app1, fold_zero in H.
    - rewrite bp_closed in H by lia. rewrite Nat.sub_diag, pow1 in H. cbn [pow] in H.
      pose proof (pc_pos d d (Nat.le_refl d)) as P. apply (Rmult_eq_reg_l (pc d d)); lra.
    - intros a Ha. apply in_map_iff in Ha. destruct Ha as (j & <- & Hj). apply in_seq in Hj. rewrite bp_closed by lia.
      replace (1 - 1) with 0 by ring. rewrite pow_i by lia. ring. }
  set (l := map (fun j => pc d j * nth j y 0) (seq 0 d)).
  assert (LL : length l = d) by (unfold l; rewrite map_length, seq_length; reflexivity).
  assert (Z : forall a, In a l -> a = 0).
  { apply (too_many_zeros (map (fun x => x / (1 - x)) xs)).
    - clear -N Ix. induction xs as [|x xs IH]; [constructor|]. inversion N as [|? ? NI ND]; subst. cbn. constructor.
      + intros K. apply in_map_iff in K. destruct K as (z & E & Hz).
        pose proof (Ix x (or_introl eq_refl)). pose proof (Ix z (or_intror Hz)).
        assert (z = x); [|subst; contradiction].
        apply (f_equal (fun q => q * ((1 - z) * (1 - x)))) in E.
        replace (z / (1 - z) * ((1 - z) * (1 - x))) with (z * (1 - x)) in E by (field; lra).
        replace (x / (1 - x) * ((1 - z) * (1 - x))) with (x * (1 - z)) in E by (field; lra). lra.
      + apply IH; [exact ND|intros u Hu; apply Ix; right; exact Hu].
    - rewrite map_length, Lx, LL. lia.
    - intros w Hw. apply in_map_iff in Hw. destruct Hw as (x & <- & Hx). specialize (Ix x Hx). specialize (H x (or_introl Hx)).
      rewrite dot_bern in H by first [exact L | split; lra]. rewrite in_seq_last, fold_app1, Yd in H.
      destruct d as [|d']; [destruct xs; [destruct Hx|discriminate]|].
      pose proof (peval_homog l d' 0 x ltac:(lra) ltac:(lia)) as P. rewrite LL in P.
      assert (Q : fold_right Rplus 0 (map (fun j => nth j y 0 * bp (S d') j x) (seq 0 (S d')))
                  = (1 - x) * fold_right Rplus 0 (map (fun j => nth (j - 0) l 0 * x ^ j * (1 - x) ^ (d' - j)) (seq 0 (S d')))).
      { assert (G : forall (f g : nat -> R) c ks, (forall j, In j ks -> f j = c * g j) -> fold_right Rplus 0 (map f ks) = c * fold_right Rplus 0 (map g ks)).
        { intros f g c. induction ks as [|k ks IH]; intros E; [cbn; ring|]. cbn [map fold_right]. rewrite (E k), IH; [ring|intros b Hb; apply E; right; exact Hb|left; reflexivity]. }
        apply G. intros j Hj. apply in_seq in Hj. rewrite Nat.sub_0_r.
        unfold l. rewrite (nth_indep (map (fun j => pc (S d') j * nth j y 0) (seq 0 (S d'))) 0 (pc (S d') 0 * nth 0 y 0)) by (rewrite map_length, seq_length; lia).
        rewrite (map_nth (fun j => pc (S d') j * nth j y 0)), seq_nth by lia. rewrite bp_closed by lia.
        replace (S d' - j)%nat with (S (d' - j)) by lia. cbn [pow Nat.add]. ring. }
      rewrite Q, <- P in H. cbn [pow] in H.
      assert (A : 0 < (1 - x) ^ d') by (apply pow_lt; lra).
      apply (Rmult_eq_reg_l ((1 - x) * (1 - x) ^ d')); [|apply Rgt_not_eq, Rmult_lt_0_compat; lra].
      rewrite Rmult_0_r. rewrite <- H. ring. }
  intros a Ha. apply (In_nth _ _ 0) in Ha. destruct Ha as (n & Hn & <-). rewrite L in Hn.
  destruct (Nat.eq_dec n d) as [->|NE]; [exact Yd|].
  assert (P := pc_pos d n ltac:(lia)).
  apply (Rmult_eq_reg_l (pc d n)); [|lra]. rewrite Rmult_0_r. apply Z. unfold l. apply in_map_iff. exists n. split; [reflexivity|apply in_seq; lia].
Qed.
