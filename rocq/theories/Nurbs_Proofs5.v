(** Tensor product splines. *)
From Coq Require Import Reals Lra Lia List Arith Bool ZArith.
From Verif Require Import Blossom Spline_Model Spline_Spec Spline_Proofs Spline_Proofs2 Spline_Proofs3 Splop_Model Splop_Spec Span_Proofs Span_Proofs2 Splop_Proofs
  Splop_Proofs2 Splop_Proofs3 Nurbs_Model Nurbs_Spec Nurbs_Proofs.
Import ListNotations.
Local Open Scope R_scope.

(** sums over all indices, for given values of the basis functions *)
Fixpoint vsum (vs : list (list R)) (c : list nat -> R) : R :=
  match vs with
  | v :: r => total (map (fun i => nth i v 0 * vsum r (fun idx => c (i :: idx))) (seq 0 (length v)))
  | [] => c []
  end.
Lemma vsum_ext : forall vs c c', (forall idx, c idx = c' idx) -> vsum vs c = vsum vs c'.
Proof.
  induction vs as [|v r IH]; intros c c' E; cbn; auto. apply total_ext_in. intros i _. rewrite (IH _ (fun idx => c' (i :: idx))); auto.
Qed.
Lemma total_plus : forall (A : Type) (f g : A -> R) l, total (map (fun i => f i + g i) l) = total (map f l) + total (map g l).
Proof. unfold total. induction l as [|a l IH]; cbn; [lra|]. rewrite IH. ring. Qed.
Lemma total_times : forall (A : Type) a (f : A -> R) l, total (map (fun i => a * f i) l) = a * total (map f l).
Proof. unfold total. induction l as [|b l IH]; cbn; [lra|]. rewrite IH. ring. Qed.
Lemma vsum_add : forall vs c c', vsum vs (fun idx => c idx + c' idx) = vsum vs c + vsum vs c'.
Proof.
  induction vs as [|v r IH]; intros c c'; cbn; auto. rewrite <- total_plus. apply total_ext_in. intros i _. rewrite IH. ring.
Qed.
Lemma vsum_scal : forall vs a c, vsum vs (fun idx => a * c idx) = a * vsum vs c.
Proof.
  induction vs as [|v r IH]; intros a c; cbn; auto. rewrite <- total_times. apply total_ext_in. intros i _. rewrite IH. ring.
Qed.
Lemma vsum_const : forall vs a, (forall v, In v vs -> total v = 1) -> vsum vs (fun _ => a) = a.
Proof.
  induction vs as [|v r IH]; intros a P; cbn; auto. rewrite IH by (intros w I; apply P; now right).
  rewrite (total_ext_in _ _ (fun i => a * nth i v 0)) by (intros; ring). rewrite total_times.
  rewrite (map_nth_seq_id v), (P v) by now left. ring.
Qed.
Lemma vsum_total : forall A vs (f : A -> R) (g : A -> list nat -> R) l,
  vsum vs (fun idx => total (map (fun j => f j * g j idx) l)) = total (map (fun j => f j * vsum vs (g j)) l).
Proof.
  induction l as [|j l IH].
  { cbn. rewrite (vsum_ext _ _ (fun _ => 0 * 0)) by (intros; unfold total; cbn; ring). rewrite vsum_scal. unfold total. cbn. ring. }
  rewrite (vsum_ext _ _ (fun idx => f j * g j idx + total (map (fun j => f j * g j idx) l))) by reflexivity.
  rewrite vsum_add, vsum_scal, IH. reflexivity.
Qed.
Lemma total_swap : forall (A B : Type) (f : A -> B -> R) l m,
  total (map (fun i => total (map (f i) m)) l) = total (map (fun j => total (map (fun i => f i j) l)) m).
Proof.
  induction l as [|a l IH]; intros m. { cbn. induction m as [|b m I]; cbn; auto. unfold total in *. cbn in *. rewrite <- I. ring. }
  transitivity (total (map (f a) m) + total (map (fun i => total (map (f i) m)) l)); [reflexivity|]. rewrite IH, <- total_plus. reflexivity.
Qed.
Lemma dot_seq : forall v f, dot v (map f (seq 0 (length v))) = total (map (fun i => nth i v 0 * f i) (seq 0 (length v))).
Proof.
  intros v f. rewrite dot_total by (rewrite map_length, seq_length; reflexivity). apply total_ext_in. intros i I. apply in_seq in I.
  rewrite nth_map_seq by lia. reflexivity.
Qed.

(** evaluation *)
Lemma contract_app : forall l1 l2 a, contract (l1 ++ l2) a = contract l2 (contract l1 a).
Proof. induction l1 as [|v l1 IH]; intros; cbn; auto. Qed.
Lemma contract_rev : forall vs a idx, contract (rev vs) a idx = vsum vs (fun r => a (idx ++ r)).
Proof.
  induction vs as [|v vs IH]; intros a idx. { cbn. now rewrite app_nil_r. }
  cbn [rev]. rewrite contract_app. cbn [contract]. unfold inner. rewrite dot_seq. cbn [vsum]. apply total_ext_in. intros i _. f_equal.
  rewrite IH. apply vsum_ext. intros r. now rewrite <- app_assoc.
Qed.
Definition evals (bs : list bbasis) (xs : list R) := map (fun p => eval_basis (fst p) (snd p)) (combine bs xs).
Lemma tsum_vsum : forall bs xs c, length bs = length xs -> tsum bs xs c = vsum (evals bs xs) c.
Proof.
  induction bs as [|b bs IH]; intros [|x xs] c L; cbn in *; try discriminate; auto. rewrite blen_eval. apply total_ext_in. intros i _. rewrite IH by lia. reflexivity.
Qed.
Lemma tcall_vsum : forall t xs, tcall t xs = vsum (evals (tbasis t) xs) (tcoeffs t).
Proof. intros t xs. unfold tcall. rewrite contract_rev. reflexivity. Qed.
Theorem tcall_tsum : forall t xs, length xs = length (tbasis t) -> tcall t xs = tsum (tbasis t) xs (tcoeffs t).
Proof. intros t xs L. rewrite tcall_vsum, tsum_vsum; auto. Qed.

(** a matrix on every axis *)
Fixpoint good (vs vs1 : list (list R)) (Ts : list (list (list R))) : Prop :=
  match vs, vs1, Ts with
  | [], [], [] => True
  | v :: vs', v1 :: vs1', T :: Ts' =>
      length T = length v1 /\ (forall col, In col T -> length col = length v) /\
      (forall k, (k < length v1)%nat -> dot v (nth k T []) = nth k v1 0) /\ good vs' vs1' Ts'
  | _, _, _ => False
  end.
Lemma along_sum : forall v vs v1 T a, length T = length v1 -> (forall col, In col T -> length col = length v) ->
  (forall k, (k < length v1)%nat -> dot v (nth k T []) = nth k v1 0) ->
  vsum (v :: vs) (along 0 T a) = vsum (v1 :: vs) a.
Proof.
  intros v vs v1 T a LT LC H. cbn [vsum].
  transitivity (total (map (fun i => total (map (fun j => nth i v 0 * (nth i (nth j T []) 0 * vsum vs (fun idx => a (j :: idx)))) (seq 0 (length T)))) (seq 0 (length v)))).
  { apply total_ext_in. intros i _. rewrite total_times. f_equal. rewrite <- vsum_total. apply vsum_ext. intros idx. unfold along. cbn [nth put].
    rewrite <- (map_length (fun col => nth i col 0) T). rewrite dot_seq. apply total_ext_in. intros j J. apply in_seq in J. rewrite map_length in J.
    f_equal. rewrite (nth_map_d _ _ _ _ []) by lia. reflexivity. }
  rewrite total_swap, LT. apply total_ext_in. intros j J. apply in_seq in J.
  rewrite <- H by lia. rewrite dot_total by (symmetry; apply LC, nth_In; lia).
  rewrite (Rmult_comm (total _)), <- total_times. apply total_ext_in. intros i _. ring.
Qed.
Lemma all_along_cons : forall Ts i a k idx, all_along (S i) Ts a (k :: idx) = all_along i Ts (fun r => a (k :: r)) idx.
Proof. induction Ts as [|T Ts IH]; intros i a k idx; cbn [all_along]; auto. rewrite IH. reflexivity. Qed.
Theorem all_along_sum : forall vs vs1 Ts a, good vs vs1 Ts -> vsum vs (all_along 0 Ts a) = vsum vs1 a.
Proof.
  induction vs as [|v vs IH]; intros [|v1 vs1] [|T Ts] a G; cbn [good] in G; try tauto.
  destruct G as (LT & LC & H & G). rewrite <- (along_sum v vs1 v1 T a LT LC H). cbn [all_along vsum]. apply total_ext_in. intros i _. f_equal.
  rewrite <- (IH vs1 Ts _ G). apply vsum_ext. intros idx. apply all_along_cons.
Qed.

(** sums *)
Lemma oall_cons : forall A (o : option A) l r, oall (o :: l) = Some r -> exists a r', o = Some a /\ oall l = Some r' /\ r = a :: r'.
Proof. intros A [a|] l r E; cbn in E; [|discriminate]. destruct (oall l) as [r'|]; [|discriminate]. injection E as <-. eauto. Qed.
Lemma good_of : forall X bs bs1 xs Ts, clamped_box X bs -> clamped_box X bs1 -> in_box X xs ->
  Forall2 (fun b b1 => (degree b1 <= degree b)%nat /\ forall lo hi, keeps_knots b b1 lo hi (degree b - degree b1)) bs bs1 ->
  oall (map2 (transform_basis 0) bs bs1) = Some Ts -> good (evals bs xs) (evals bs1 xs) Ts.
Proof.
  intros X bs bs1 xs Ts CB CB1 IB K E. revert X xs Ts CB CB1 IB E. induction K as [|b b1 bs bs1 [D KK] K IH]; intros X xs Ts CB CB1 IB E.
  { inversion CB; subst. inversion IB; subst. injection E as <-. exact I. }
  inversion CB as [|I0 b0 X0 bs0 C0 CB0]; subst. inversion CB1 as [|I1 b2 X2 bs2 C1 CB2]; subst. inversion IB as [|I2 x X3 xs0 X1 IB0]; subst.
  unfold map2 in E. cbn [combine map fst snd] in E. apply oall_cons in E. destruct E as (T & r & ET & Er & ->).
  destruct (transform_basis_close 0 b b1 T (fst I0) (snd I0) (Rle_refl 0) C0 C1 D (KK _ _) ET) as (LT & LC & H).
  change (evals (b :: bs) (x :: xs0)) with (eval_basis b x :: evals bs xs0). change (evals (b1 :: bs1) (x :: xs0)) with (eval_basis b1 x :: evals bs1 xs0).
  cbn [good]. rewrite !blen_eval. repeat split; auto.
  - intros k Hk. apply close_0. apply (H x k X1 Hk).
  - apply (IH X0); auto.
Qed.
Lemma add_box : forall X bs1 bs2, clamped_box X bs1 -> clamped_box X bs2 ->
  let bs := map2 basis_add bs1 bs2 in clamped_box X bs /\
  Forall2 (fun b b1 => (degree b1 <= degree b)%nat /\ forall lo hi, keeps_knots b b1 lo hi (degree b - degree b1)) bs bs1 /\
  Forall2 (fun b b1 => (degree b1 <= degree b)%nat /\ forall lo hi, keeps_knots b b1 lo hi (degree b - degree b1)) bs bs2.
Proof.
  intros X bs1 bs2 C1. revert bs2. induction C1 as [|I0 b1 X bs1 C C1 IH]; intros bs2 C2; inversion C2 as [|I1 b2 X2 bs2' D C2']; subst; cbv zeta.
  { repeat constructor. }
  destruct (IH bs2' C2') as (A & B1 & B2). unfold map2. cbn [combine map fst snd].
  assert (M1 : (degree b1 <= Nat.max (degree b1) (degree b2))%nat) by lia. assert (M2 : (degree b2 <= Nat.max (degree b1) (degree b2))%nat) by lia.
  unfold basis_add at 1 3 5. split; [|split]; constructor; auto.
  - now apply combine_clamped.
  - rewrite combine_degree. split; auto. intros. now apply combine_keeps_l.
  - rewrite combine_degree. split; auto. intros. now apply combine_keeps_r.
Qed.
Theorem tadd_exact : forall t1 t2 t X xs, clamped_box X (tbasis t1) -> clamped_box X (tbasis t2) -> in_box X xs ->
  tadd 0 t1 t2 = Some t -> tcall t xs = tcall t1 xs + tcall t2 xs.
Proof.
  intros t1 t2 t X xs C1 C2 IB E. unfold tadd in E. destruct (add_box X _ _ C1 C2) as (CB & K1 & K2).
  destruct (oall (map2 (transform_basis 0) (map2 basis_add (tbasis t1) (tbasis t2)) (tbasis t1))) as [T1|] eqn:E1; [|discriminate].
  destruct (oall (map2 (transform_basis 0) (map2 basis_add (tbasis t1) (tbasis t2)) (tbasis t2))) as [T2|] eqn:E2; [|discriminate].
  injection E as <-. rewrite !tcall_vsum. cbn [tbasis tcoeffs]. rewrite vsum_add.
  rewrite (all_along_sum _ _ _ _ (good_of X _ _ xs T1 CB C1 IB K1 E1)), (all_along_sum _ _ _ _ (good_of X _ _ xs T2 CB C2 IB K2 E2)). reflexivity.
Qed.
Theorem tneg_call : forall t xs, tcall (tneg t) xs = - tcall t xs.
Proof.
  intros t xs. rewrite !tcall_vsum. cbn [tneg tbasis tcoeffs]. rewrite (vsum_ext _ _ (fun idx => (-1) * tcoeffs t idx)) by (intros; ring).
  rewrite vsum_scal. ring.
Qed.
Theorem tsub_exact : forall t1 t2 t X xs, clamped_box X (tbasis t1) -> clamped_box X (tbasis t2) -> in_box X xs ->
  tsub 0 t1 t2 = Some t -> tcall t xs = tcall t1 xs - tcall t2 xs.
Proof. intros t1 t2 t X xs C1 C2 IB E. unfold tsub in E. rewrite (tadd_exact t1 (tneg t2) t X xs); auto. rewrite tneg_call. ring. Qed.
Lemma evals_one : forall X bs xs v, clamped_box X bs -> in_box X xs -> In v (evals bs xs) -> total v = 1.
Proof.
  intros X bs xs v C. revert xs. induction C as [|I0 b X bs C0 C IH]; intros xs IB I. { inversion IB; subst. destruct I. }
  inversion IB as [|I1 x X2 xs0 X1 IB0]; subst. destruct I as [<-|I]; [|now apply (IH xs0)]. cbn [fst snd].
  apply partition_of_unity; [apply C0|]. apply (clamped_in b (fst I0) (snd I0)); auto.
Qed.
Theorem tadd_num_call : forall t a X xs, clamped_box X (tbasis t) -> in_box X xs -> tcall (tadd_num t a) xs = tcall t xs + a.
Proof.
  intros t a X xs C IB. rewrite !tcall_vsum. cbn [tadd_num tbasis tcoeffs]. rewrite vsum_add. f_equal. apply vsum_const.
  intros v. now apply (evals_one X).
Qed.
Theorem tmul_num_call : forall t a xs, tcall (tmul_num t a) xs = a * tcall t xs.
Proof.
  intros t a xs. rewrite !tcall_vsum. cbn [tmul_num tbasis tcoeffs]. rewrite (vsum_ext _ _ (fun idx => a * tcoeffs t idx)) by (intros; ring). apply vsum_scal.
Qed.
Theorem trsub_num_call : forall t a X xs, clamped_box X (tbasis t) -> in_box X xs -> tcall (trsub_num a t) xs = tcall t xs - a.
Proof. intros t a X xs C IB. unfold trsub_num. rewrite (tadd_num_call t (- a) X xs) by auto. ring. Qed.

(** products *)
Lemma transform_products : forall b1 b2 T lo hi x, clamped_on b1 lo hi -> clamped_on b2 lo hi -> lo <= x <= hi ->
  transform 0 (basis_mul b1 b2) (product_row (basis_mul b1 b2) b1 b2) (length (pairs b1 b2)) = Some T ->
  let row := map (fun p => nth (fst p) (eval_basis b1 x) 0 * nth (snd p) (eval_basis b2 x) 0) (pairs b1 b2) in
  length T = length row /\ (forall col, In col T -> length col = length (eval_basis (basis_mul b1 b2) x)) /\
  forall k, (k < length row)%nat -> dot (eval_basis (basis_mul b1 b2) x) (nth k T []) = nth k row 0.
Proof.
  intros b1 b2 T lo hi x C1 C2 X E. cbv zeta. rewrite map_length, blen_eval.
  assert (Cm : clamped_on (basis_mul b1 b2) lo hi) by (apply combine_clamped; auto; lia).
  assert (P : length T = length (pairs b1 b2) /\ (forall col, In col T -> length col = blen (basis_mul b1 b2)) /\
     forall x k, lo <= x <= hi -> (k < length (pairs b1 b2))%nat ->
       Rabs (dot (eval_basis (basis_mul b1 b2) x) (nth k T []) -
             (fun k x => nth (fst (nth k (pairs b1 b2) (0%nat, 0%nat))) (eval_basis b1 x) 0 * nth (snd (nth k (pairs b1 b2) (0%nat, 0%nat))) (eval_basis b2 x) 0) k x) <= 0).
  { eapply (transform_all 0 (basis_mul b1 b2) _ _ T lo hi); [lra|exact Cm|exact E| |].
    - intros i k I K. unfold product_row. rewrite (nth_map_d _ _ _ _ (0%nat, 0%nat)) by exact K. reflexivity.
    - intros k K. cbv beta. destruct (nth k (pairs b1 b2) (0%nat, 0%nat)) as [i j] eqn:P. cbn [fst snd].
      assert (IJ := pairs_in b1 b2 (i, j) ltac:(rewrite <- P; now apply nth_In)). cbn [fst snd] in IJ. destruct IJ as [I J].
      set (u := mkS b1 (unitv (blen b1) i)). set (v := mkS b2 (unitv (blen b2) j)).
      assert (Su : sized u) by (unfold sized, u; cbn [sbasis coeffs]; rewrite unitv_length; reflexivity).
      assert (Sv : sized v) by (unfold sized, v; cbn [sbasis coeffs]; rewrite unitv_length; reflexivity).
      assert (Dm : degree (basis_mul b1 b2) = (degree b1 + degree b2)%nat) by (unfold basis_mul; apply combine_degree).
      destruct (clamped_two (basis_mul b1 b2) u v lo hi Cm C1 C2 Su Sv Dm) as (w & LW & HW).
      + pose proof (combine_keeps_l b1 b2 (degree b1 + degree b2) lo hi ltac:(lia) ltac:(lia)) as K1.
        replace (degree b1 + degree b2 - degree b1)%nat with (degree b2) in K1 by lia. exact K1.
      + pose proof (combine_keeps_r b1 b2 (degree b1 + degree b2) lo hi ltac:(lia) ltac:(lia)) as K1.
        replace (degree b1 + degree b2 - degree b2)%nat with (degree b1) in K1 by lia. exact K1.
      + exists w. split; auto. intros y Y. rewrite HW by exact Y. unfold u, v. rewrite !call_unit by auto. reflexivity. }
  destruct P as (LT & LC & H). repeat split; auto. intros k K. rewrite (nth_map_d _ _ _ _ (0%nat, 0%nat)) by exact K. apply close_0. apply (H x k X K).
Qed.
Theorem tmul_exact : forall t1 t2 t X xs, clamped_box X (tbasis t1) -> clamped_box X (tbasis t2) -> in_box X xs ->
  tmul 0 t1 t2 = Some t -> tcall t xs = tcall t1 xs * tcall t2 xs.
Proof.
  intros [bs1 c1] [bs2 c2] t X xs C1 C2 IB E. unfold tmul in E. cbn [tbasis tcoeffs] in *.
  destruct bs1 as [|a0 [|a1 [|a2 bs1]]]; try discriminate. destruct bs2 as [|b0 [|b1 [|b2 bs2]]]; try discriminate.
  inversion C1 as [|I0 q0 X0 qs0 A0 C1']; subst. inversion C1' as [|I1 q1 X1 qs1 A1 C1'']; subst. inversion C1''; subst.
  inversion C2 as [|J0 p0 Y0 ps0 B0 C2']; subst. inversion C2' as [|J1 p1 Y1 ps1 B1 C2'']; subst.
  inversion IB as [|L0 x Z0 xs0 PX IB']; subst. inversion IB' as [|L1 y Z1 xs1 PY IB'']; subst. inversion IB''; subst.
  destruct (transform 0 (basis_mul a0 b0) _ _) as [T0|] eqn:E0; [|discriminate].
  destruct (transform 0 (basis_mul a1 b1) _ _) as [T1|] eqn:E1; [|discriminate]. injection E as <-.
  rewrite !tcall_vsum. cbn [tbasis tcoeffs].
  destruct (transform_products a0 b0 T0 (fst I0) (snd I0) x A0 B0 PX E0) as (G1 & G2 & G3).
  destruct (transform_products a1 b1 T1 (fst I1) (snd I1) y A1 B1 PY E1) as (G4 & G5 & G6).
  set (row0 := map _ (pairs a0 b0)) in *. set (row1 := map _ (pairs a1 b1)) in *.
  set (pr := fun idx : list nat => c1 [fst (nth (nth 0 idx 0%nat) (pairs a0 b0) (0%nat, 0%nat)); fst (nth (nth 1 idx 0%nat) (pairs a1 b1) (0%nat, 0%nat))]
    * c2 [snd (nth (nth 0 idx 0%nat) (pairs a0 b0) (0%nat, 0%nat)); snd (nth (nth 1 idx 0%nat) (pairs a1 b1) (0%nat, 0%nat))]).
  assert (GG : good (evals [basis_mul a0 b0; basis_mul a1 b1] [x; y]) [row0; row1] [T0; T1]) by (cbn [good evals combine map fst snd]; repeat split; auto).
  transitivity (vsum [row0; row1] pr). { exact (all_along_sum _ _ _ pr GG). } unfold pr.
  cbn [vsum evals combine map fst snd nth].
  set (u := fun i => total (map (fun k => nth k (eval_basis a1 y) 0 * c1 [i; k]) (seq 0 (length (eval_basis a1 y))))).
  set (v := fun j => total (map (fun l => nth l (eval_basis b1 y) 0 * c2 [j; l]) (seq 0 (length (eval_basis b1 y))))).
  assert (PS : forall (d1 d2 : bbasis) (f g : nat -> R) lo hi z, clamped_on d1 lo hi -> clamped_on d2 lo hi -> lo <= z <= hi ->
     total (map (fun k => nth k (map (fun p => nth (fst p) (eval_basis d1 z) 0 * nth (snd p) (eval_basis d2 z) 0) (pairs d1 d2)) 0
        * (f (fst (nth k (pairs d1 d2) (0%nat, 0%nat))) * g (snd (nth k (pairs d1 d2) (0%nat, 0%nat))))) (seq 0 (length (pairs d1 d2))))
     = total (map (fun i => nth i (eval_basis d1 z) 0 * f i) (seq 0 (length (eval_basis d1 z)))) *
       total (map (fun i => nth i (eval_basis d2 z) 0 * g i) (seq 0 (length (eval_basis d2 z))))).
  { intros d1 d2 f g lo hi z D1 D2 Z. set (s1 := mkS d1 (map f (seq 0 (blen d1)))). set (s2 := mkS d2 (map g (seq 0 (blen d2)))).
    assert (S1 : sized s1) by (unfold sized, s1; cbn [sbasis coeffs]; rewrite map_length, seq_length; reflexivity).
    assert (S2 : sized s2) by (unfold sized, s2; cbn [sbasis coeffs]; rewrite map_length, seq_length; reflexivity).
    pose proof (pairs_sum s1 s2 lo hi z D1 D2 S1 S2 Z) as P. unfold call in P. cbn [sbasis coeffs s1 s2] in P.
    rewrite <- (blen_eval d1 z), <- (blen_eval d2 z), !dot_seq in P. rewrite <- P. clear P.
    set (h := fun p : nat * nat => nth (fst p) (eval_basis d1 z) 0 * nth (snd p) (eval_basis d2 z) 0 * (f (fst p) * g (snd p))).
    transitivity (total (map h (pairs d1 d2))).
    - transitivity (total (map (fun k => nth k (map h (pairs d1 d2)) 0) (seq 0 (length (map h (pairs d1 d2)))))); [|rewrite (map_nth_seq_id (map h (pairs d1 d2))); reflexivity].
      rewrite map_length. apply total_ext_in. intros k K. apply in_seq in K. rewrite !(nth_map_d _ _ _ _ (0%nat, 0%nat)) by lia. unfold h. ring.
    - apply total_ext_in. intros p I. destruct (pairs_in d1 d2 p I). unfold h. rewrite !nth_map_seq by (rewrite blen_eval; auto). reflexivity. }
  transitivity (total (map (fun k => nth k row0 0 * (u (fst (nth k (pairs a0 b0) (0%nat, 0%nat))) * v (snd (nth k (pairs a0 b0) (0%nat, 0%nat))))) (seq 0 (length (pairs a0 b0))))).
  - unfold row0 at 2. rewrite map_length. apply total_ext_in. intros k _. f_equal. unfold row1. rewrite map_length.
    exact (PS a1 b1 (fun m => c1 [fst (nth k (pairs a0 b0) (0%nat, 0%nat)); m]) (fun m => c2 [snd (nth k (pairs a0 b0) (0%nat, 0%nat)); m]) _ _ y A1 B1 PY).
  - exact (PS a0 b0 u v _ _ x A0 B0 PX).
Qed.
