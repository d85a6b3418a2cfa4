(** The formation error. *)
From Coq Require Import Reals List Arith Lia Lra.
From Verif Require Import Vehicle_Model Share_Model Share_Spec.
Import ListNotations.
Local Open Scope R_scope.

Definition sum (l : list R) : R := fold_right Rplus 0 l.
Lemma sum_nonneg : forall l, Forall (fun x => 0 <= x) l -> 0 <= sum l.
Proof. intros l H. induction H; cbn; [lra|]. unfold sum in *. lra. Qed.
Lemma sum_zero : forall l, Forall (fun x => 0 <= x) l -> (sum l = 0 <-> Forall (fun x => x = 0) l).
Proof.
  intros l H. induction H as [|x l Hx H IH]; [split; [constructor|reflexivity]|]. pose proof (sum_nonneg l H). unfold sum in *. cbn. split.
  - intros E. constructor; [lra|]. apply IH. lra.
  - intros E. inversion E; subst. rewrite (proj2 IH) by assumption. lra.
Qed.
Lemma sum_le : forall {A} (f g : A -> R) l, (forall x, In x l -> f x <= g x) -> sum (map f l) <= sum (map g l).
Proof.
  intros A f g l. induction l as [|x l IH]; intros H; cbn; [lra|]. pose proof (H x (or_introl eq_refl)).
  assert (sum (map f l) <= sum (map g l)) by (apply IH; intros y Y; apply H; right; exact Y). unfold sum in *. lra.
Qed.
Lemma sum_const : forall {A} c (l : list A), sum (map (fun _ => c) l) = INR (length l) * c.
Proof. intros A c l. induction l as [|x l IH]; [cbn; lra|]. cbn [map length]. rewrite S_INR. unfold sum in *. cbn [fold_right]. rewrite IH. lra. Qed.
Lemma sum_add : forall {A} (f g : A -> R) l, sum (map (fun x => f x + g x) l) = sum (map f l) + sum (map g l).
Proof. intros A f g l. induction l as [|x l IH]; cbn; [lra|]. unfold sum in *. rewrite IH. lra. Qed.
Lemma fold_sum : forall {A} (f : A -> R) l, fold_right (fun x e => f x + e) 0 l = sum (map f l).
Proof. intros A f l. induction l as [|x l IH]; cbn; [reflexivity|]. rewrite IH. reflexivity. Qed.
Lemma sum_scale : forall {A} (f : A -> R) c l, sum (map (fun x => c * f x) l) = c * sum (map f l).
Proof. intros A f c l. induction l as [|x l IH]; cbn; [lra|]. unfold sum in *. rewrite IH. lra. Qed.

Lemma squares : forall v, 0 <= fold_right (fun a s => a * a + s) 0 v.
Proof. induction v as [|a v IH]; cbn; [lra|]. nra. Qed.
Lemma norm_nonneg : forall v, 0 <= norm v.
Proof. intros v. apply sqrt_pos. Qed.
Lemma norm_zero : forall v, norm v = 0 <-> Forall (fun x => x = 0) v.
Proof.
  intros v. unfold norm. split.
  - intros E. apply sqrt_eq_0 in E; [|apply squares]. induction v as [|a v IH]; [constructor|]. cbn in E. pose proof (squares v).
    assert (a * a = 0) by nra. constructor; [nra|]. apply IH. nra.
  - intros H. replace (fold_right _ 0 v) with 0; [apply sqrt_0|]. induction H as [|a v -> H IH]; cbn; [reflexivity|]. rewrite <- IH. ring.
Qed.
Lemma vsub_nth : forall u v l, length u = length v -> (l < length u)%nat -> nth l (vsub u v) 0 = nth l u 0 - nth l v 0.
Proof.
  induction u as [|a u IH]; intros [|b v] l L H; cbn in *; try lia. destruct l; [reflexivity|]. apply IH; lia.
Qed.
Lemma vsub_length : forall u v, length u = length v -> length (vsub u v) = length u.
Proof. intros u v L. unfold vsub. rewrite map_length, combine_length. lia. Qed.
Lemma vsub_norm_zero : forall u v, length u = length v -> (norm (vsub u v) = 0 <-> forall l, (l < length u)%nat -> nth l u 0 = nth l v 0).
Proof.
  intros u v L. rewrite norm_zero, Forall_forall. split.
  - intros H l Hl. specialize (H (nth l (vsub u v) 0)). rewrite vsub_nth in H by assumption.
    enough (nth l u 0 - nth l v 0 = 0) by lra. apply H. rewrite <- vsub_nth by assumption. apply nth_In. rewrite vsub_length; assumption.
  - intros H x I. destruct (In_nth _ _ 0 I) as (l & Hl & <-). rewrite vsub_length in Hl by assumption. rewrite vsub_nth by assumption.
    rewrite (H l Hl). ring.
Qed.

Section Fleet.
Variables (n dim : nat) (cs : list car).
Hypothesis PF : proper_fleet n dim cs.
Lemma pf_len : (0 < length cs)%nat.
Proof. destruct PF as (NE & _). destruct cs; [congruence|cbn; lia]. Qed.
Lemma pf_car : forall c, In c cs -> length (stamp c) = n /\ (forall k, (k < n)%nat -> length (nth k (centre c) []) = dim /\ length (nth k (spot c) []) = dim).
Proof. destruct PF as (_ & F). rewrite Forall_forall in F. exact F. Qed.
Lemma pf_hd : In (hd (mkCar [] [] [] []) cs) cs.
Proof. destruct PF as (NE & _). destruct cs; [congruence|left; reflexivity]. Qed.
Lemma pf_last : In (last cs (mkCar [] [] [] [])) cs.
Proof.
  destruct PF as (NE & _). clear PF. destruct cs as [|c r]; [congruence|]. clear NE. revert c. induction r as [|c' r IH]; intros c; [left; reflexivity|].
  right. apply IH.
Qed.
Lemma mean_length : forall k, (k < n)%nat -> length (fleet_mean cs k) = dim.
Proof. intros k Hk. unfold fleet_mean. rewrite map_length, seq_length. apply pf_car; [apply pf_hd|exact Hk]. Qed.
Lemma mean_nth : forall k l, (k < n)%nat -> (l < dim)%nat -> nth l (fleet_mean cs k) 0 = middle cs k l.
Proof.
  intros k l Hk Hl. unfold fleet_mean. destruct (pf_car _ pf_hd) as (_ & H). destruct (H k Hk) as (_ & ->).
  rewrite (nth_indep _ 0 (mean (map (fun c => nth 0 (nth k (spot c) []) 0) cs))) by (rewrite map_length, seq_length; exact Hl).
  rewrite (map_nth (fun l => mean (map (fun c => nth l (nth k (spot c) []) 0) cs)) (seq 0 dim) 0%nat). rewrite seq_nth by exact Hl. cbn [Nat.add].
  unfold mean, middle. rewrite map_length. reflexivity.
Qed.
Definition deviation (c : car) (k : nat) : R := norm (vsub (fleet_mean cs k) (nth k (centre c) [])) / norm (config c).
Lemma sample_sum : forall k, sample_error cs k = sum (map (fun c => deviation c k) cs) / INR (length cs).
Proof. intros k. unfold sample_error. rewrite fold_sum. reflexivity. Qed.
Lemma Rdiv_nonneg : forall a b, 0 <= a -> 0 <= b -> 0 <= a / b.
Proof.
  intros a b A B. destruct (Req_dec b 0) as [->|N]; [unfold Rdiv; rewrite Rinv_0; lra|].
  apply Rmult_le_pos; [exact A|]. left. apply Rinv_0_lt_compat. lra.
Qed.
Lemma deviation_nonneg : forall c k, 0 <= deviation c k.
Proof. intros c k. apply Rdiv_nonneg; apply norm_nonneg. Qed.
Lemma sample_nonneg : forall k, 0 <= sample_error cs k.
Proof.
  intros k. rewrite sample_sum. apply Rdiv_nonneg; [|apply pos_INR]. apply sum_nonneg. apply Forall_forall. intros x I.
  apply in_map_iff in I. destruct I as (c & <- & _). apply deviation_nonneg.
Qed.
Lemma sample_zero : forall k, (k < n)%nat -> Forall (fun c => 0 < norm (config c)) cs ->
  (sample_error cs k = 0 <-> forall c l, In c cs -> (l < dim)%nat -> nth l (nth k (centre c) []) 0 = middle cs k l).
Proof.
  intros k Hk NC. rewrite sample_sum. rewrite Forall_forall in NC.
  assert (PL : 0 < INR (length cs)) by (apply lt_0_INR; exact pf_len).
  assert (D : forall c, In c cs -> (deviation c k = 0 <-> forall l, (l < dim)%nat -> nth l (nth k (centre c) []) 0 = middle cs k l)).
  { intros c I. destruct (pf_car c I) as (_ & H). destruct (H k Hk) as (L & _). specialize (NC c I).
    assert (Z : deviation c k = 0 <-> norm (vsub (fleet_mean cs k) (nth k (centre c) [])) = 0).
    { unfold deviation, Rdiv. split; intros E; [|rewrite E; ring]. apply Rmult_integral in E. destruct E as [E|E]; [exact E|].
      pose proof (Rinv_0_lt_compat _ NC). lra. }
    rewrite Z, vsub_norm_zero by (rewrite mean_length by exact Hk; congruence). rewrite mean_length by exact Hk.
    split; intros E l Hl; specialize (E l Hl); rewrite mean_nth in * by assumption; congruence. }
  assert (S0 : sum (map (fun c => deviation c k) cs) / INR (length cs) = 0 <-> sum (map (fun c => deviation c k) cs) = 0).
  { unfold Rdiv. split; intros E; [|rewrite E; ring]. apply Rmult_integral in E. destruct E as [E|E]; [exact E|]. pose proof (Rinv_0_lt_compat _ PL). lra. }
  rewrite S0, sum_zero.
  - rewrite Forall_forall. split.
    + intros E c l I Hl. apply (proj1 (D c I)); [|exact Hl]. apply E. apply in_map_iff. exists c. auto.
    + intros E x I. apply in_map_iff in I. destruct I as (c & <- & I). apply (D c I). intros l Hl. apply E; assumption.
  - apply Forall_forall. intros x I. apply in_map_iff in I. destruct I as (c & <- & _). apply deviation_nonneg.
Qed.
Let t := stamp (last cs (mkCar [] [] [] [])).
Let Ts := nth 1 t 0 - nth 0 t 0.
Lemma error_form : forall e, interaction_error cs = Some e -> (2 <= n)%nat /\
  e = sum (map (fun k => 1 / 2 * (sample_error cs (S k) + sample_error cs k) * Ts) (seq 0 (n - 1))) / last t 0.
Proof.
  intros e E. unfold interaction_error in E. destruct (pf_car _ pf_last) as (L & _). fold t in E, L. rewrite L in E.
  destruct (n <? 2)%nat eqn:H; [discriminate|]. apply Nat.ltb_ge in H. split; [exact H|]. injection E as <-. rewrite fold_sum. reflexivity.
Qed.
Theorem error_defined : (2 <= n)%nat -> exists e, interaction_error cs = Some e.
Proof.
  intros H. unfold interaction_error. destruct (pf_car _ pf_last) as (L & _). rewrite L. rewrite (proj2 (Nat.ltb_ge n 2) H). eauto.
Qed.
Theorem error_nonneg : forall e, interaction_error cs = Some e -> 0 <= Ts -> 0 <= last t 0 -> 0 <= e.
Proof.
  intros e E HT HE. destruct (error_form e E) as (_ & ->). apply Rdiv_nonneg; [|exact HE]. apply sum_nonneg. apply Forall_forall. intros x I.
  apply in_map_iff in I. destruct I as (k & <- & _). pose proof (sample_nonneg k). pose proof (sample_nonneg (S k)). nra.
Qed.
Theorem error_zero : forall e, interaction_error cs = Some e -> 0 < Ts -> 0 < last t 0 -> Forall (fun c => 0 < norm (config c)) cs ->
  (e = 0 <-> forall c k l, In c cs -> (k < n)%nat -> (l < dim)%nat -> nth l (nth k (centre c) []) 0 = middle cs k l).
Proof.
  intros e E HT HE NC. destruct (error_form e E) as (H2 & ->).
  set (f := fun k => 1 / 2 * (sample_error cs (S k) + sample_error cs k) * Ts).
  assert (FN : Forall (fun x => 0 <= x) (map f (seq 0 (n - 1)))).
  { apply Forall_forall. intros x I. apply in_map_iff in I. destruct I as (k & <- & _). unfold f. pose proof (sample_nonneg k). pose proof (sample_nonneg (S k)). nra. }
  assert (S0 : sum (map f (seq 0 (n - 1))) / last t 0 = 0 <-> sum (map f (seq 0 (n - 1))) = 0).
  { unfold Rdiv. split; intros Z; [|rewrite Z; ring]. apply Rmult_integral in Z. destruct Z as [Z|Z]; [exact Z|]. pose proof (Rinv_0_lt_compat _ HE). lra. }
  rewrite S0, (sum_zero _ FN), Forall_forall. split.
  - intros Z c k l I Hk Hl. assert (sample_error cs k = 0).
    { assert (G : forall j, (j < n - 1)%nat -> sample_error cs (S j) = 0 /\ sample_error cs j = 0).
      { intros j Hj. specialize (Z (f j)). assert (f j = 0) by (apply Z; apply in_map_iff; exists j; split; [reflexivity|apply in_seq; lia]).
        unfold f in H. pose proof (sample_nonneg j). pose proof (sample_nonneg (S j)). split; nra. }
      destruct k as [|k]; [apply (G 0%nat); lia|apply (G k); lia]. }
    apply (proj1 (sample_zero k Hk NC)); assumption.
  - intros Z x I. apply in_map_iff in I. destruct I as (k & <- & I). apply in_seq in I. unfold f.
    rewrite (proj2 (sample_zero k ltac:(lia) NC)), (proj2 (sample_zero (S k) ltac:(lia) NC)); [ring| |]; intros c l Ic Hl; apply Z; auto; lia.
Qed.
Theorem error_bound : forall e d, interaction_error cs = Some e -> 0 < Ts -> INR (n - 1) * Ts <= last t 0 -> 0 <= d ->
  (forall c k, In c cs -> (k < n)%nat -> norm (vsub (fleet_mean cs k) (nth k (centre c) [])) <= d * norm (config c)) -> e <= d.
Proof.
  intros e d E HT HE Hd B. destruct (error_form e E) as (H2 & ->).
  assert (PL : 0 < INR (length cs)) by (apply lt_0_INR; exact pf_len).
  assert (SB : forall k, (k < n)%nat -> sample_error cs k <= d).
  { intros k Hk. rewrite sample_sum. apply (Rmult_le_reg_r (INR (length cs))); [exact PL|]. unfold Rdiv. rewrite Rmult_assoc, Rinv_l, Rmult_1_r by lra.
    replace (d * INR (length cs)) with (sum (map (fun _ : car => d) cs)) by (rewrite sum_const; ring). apply sum_le. intros c I. unfold deviation.
    destruct (Req_dec (norm (config c)) 0) as [Z|NZ]; [rewrite Z; unfold Rdiv; rewrite Rinv_0; lra|].
    pose proof (norm_nonneg (config c)). apply (Rmult_le_reg_r (norm (config c))); [lra|]. unfold Rdiv. rewrite Rmult_assoc, Rinv_l, Rmult_1_r by exact NZ.
    apply B; assumption. }
  assert (P : 0 < INR (n - 1)) by (apply lt_0_INR; lia). assert (0 < last t 0) by nra.
  apply (Rmult_le_reg_r (last t 0)); [lra|]. unfold Rdiv. rewrite Rmult_assoc, Rinv_l, Rmult_1_r by lra.
  apply Rle_trans with (sum (map (fun _ : nat => d * Ts) (seq 0 (n - 1)))).
  - apply sum_le. intros k I. apply in_seq in I. pose proof (SB k ltac:(lia)). pose proof (SB (S k) ltac:(lia)). nra.
  - rewrite sum_const, seq_length. nra.
Qed.
Theorem error_formation : forall e, interaction_error cs = Some e -> 0 < Ts -> 0 < last t 0 -> Forall (fun c => 0 < norm (config c)) cs ->
  Forall (from_config n dim) cs -> (e = 0 <-> in_formation n dim cs /\ centred dim cs).
Proof.
  intros e E HT HE NC FC. rewrite (error_zero e E HT HE NC). rewrite Forall_forall in FC.
  assert (PL : 0 < INR (length cs)) by (apply lt_0_INR; exact pf_len). destruct (error_form e E) as (H2 & _).
  assert (MS : forall k l, middle cs k l * INR (length cs) = sum (map (fun c => nth l (nth k (spot c) []) 0) cs)).
  { intros k l. unfold middle, Rdiv. rewrite Rmult_assoc, Rinv_l by lra. rewrite Rmult_1_r. reflexivity. }
  split.
  - intros Z. split.
    + exists (fun k l => middle cs k l). intros c k l I Hk Hl. specialize (Z c k l I Hk Hl). rewrite (FC c I k l Hk Hl) in Z. lra.
    + intros l Hl. pose proof (MS 0%nat l) as M.
      rewrite (map_ext_in _ (fun c => middle cs 0 l + nth l (config c) 0)) in M.
      2:{ intros c I. specialize (Z c 0%nat l I ltac:(lia) Hl). rewrite (FC c I 0%nat l ltac:(lia) Hl) in Z. lra. }
      rewrite (sum_add (fun _ => middle cs 0 l) (fun c => nth l (config c) 0)), sum_const in M. unfold sum in M. lra.
  - intros ((p & P) & C) c k l I Hk Hl. rewrite (FC c I k l Hk Hl), (P c k l I Hk Hl).
    pose proof (MS k l) as M. rewrite (map_ext_in _ (fun c => p k l + nth l (config c) 0)) in M by (intros c' I'; apply P; assumption).
    rewrite (sum_add (fun _ => p k l) (fun c => nth l (config c) 0)), sum_const in M. unfold sum in M. rewrite (C l Hl) in M.
    assert (middle cs k l = p k l) by nra. lra.
Qed.
End Fleet.
(** two vehicles in formation whose configuration lies to one side *)
Definition off_car (x : R) : car := mkCar [[0]; [0]] [[x]; [x]] [x] [0; 1].
Theorem off_centre : exists cs e, proper_fleet 2 1 cs /\ Forall (fun c => 0 < norm (config c)) cs /\ Forall (from_config 2 1) cs /\
  in_formation 2 1 cs /\ interaction_error cs = Some e /\ 0 < e.
Proof.
  set (cs := [off_car 1; off_car 2]).
  assert (PF : proper_fleet 2 1 cs).
  { split; [discriminate|]. repeat constructor; destruct k as [|[|k]]; try reflexivity; lia. }
  assert (NC : Forall (fun c => 0 < norm (config c)) cs).
  { repeat constructor; unfold norm; cbn; apply sqrt_lt_R0; lra. }
  assert (FC : Forall (from_config 2 1) cs).
  { repeat constructor; intros k l Hk Hl; destruct k as [|[|k]]; destruct l as [|l]; try lia; cbn; lra. }
  destruct (error_defined 2 1 cs PF ltac:(lia)) as (e & E). exists cs, e.
  assert (F : in_formation 2 1 cs).
  { exists (fun _ _ => 0). intros c k l [<-|[<-|[]]] Hk Hl; destruct k as [|[|k]]; destruct l as [|l]; try lia; cbn; lra. }
  repeat split; auto; try apply PF.
  pose proof (error_nonneg 2 1 cs PF e E ltac:(cbn; lra) ltac:(cbn; lra)) as P.
  destruct (Req_dec e 0) as [Z|Z]; [|lra]. exfalso.
  apply (error_formation 2 1 cs PF e E ltac:(cbn; lra) ltac:(cbn; lra) NC FC) in Z. destruct Z as (_ & C). specialize (C 0%nat ltac:(lia)). cbn in C. lra.
Qed.

Theorem formation_defined : forall n dim cs, proper_fleet n dim cs -> (2 <= n)%nat -> exists e, interaction_error cs = Some e.
Proof. exact error_defined. Qed.
Theorem formation_nonneg : forall n dim cs e, proper_fleet n dim cs -> interaction_error cs = Some e ->
  0 <= first_step cs -> 0 <= end_time cs -> 0 <= e.
Proof. intros n dim cs e P. exact (error_nonneg n dim cs P e). Qed.
Theorem formation_zero : forall n dim cs e, proper_fleet n dim cs -> interaction_error cs = Some e ->
  0 < first_step cs -> 0 < end_time cs -> Forall (fun c => 0 < norm (config c)) cs ->
  (e = 0 <-> forall c k l, In c cs -> (k < n)%nat -> (l < dim)%nat -> nth l (nth k (centre c) []) 0 = middle cs k l).
Proof. intros n dim cs e P. exact (error_zero n dim cs P e). Qed.
Theorem formation_bound : forall n dim cs e d, proper_fleet n dim cs -> interaction_error cs = Some e ->
  0 < first_step cs -> INR (n - 1) * first_step cs <= end_time cs -> 0 <= d ->
  (forall c k, In c cs -> (k < n)%nat -> norm (vsub (map (middle cs k) (seq 0 dim)) (nth k (centre c) [])) <= d * norm (config c)) -> e <= d.
Proof.
  intros n dim cs e d P E A B C D. apply (error_bound n dim cs P e d E A B C). intros c k I Hk.
  replace (fleet_mean cs k) with (map (middle cs k) (seq 0 dim)); [apply D; assumption|].
  apply nth_ext with 0 0; [rewrite map_length, seq_length, (mean_length n dim cs P k Hk); reflexivity|].
  intros l Hl. rewrite map_length, seq_length in Hl. rewrite (mean_nth n dim cs P k l Hk Hl).
  rewrite (nth_indep _ 0 (middle cs k 0)) by (rewrite map_length, seq_length; exact Hl).
  rewrite map_nth, seq_nth by exact Hl. reflexivity.
Qed.
Theorem formation_perfect : forall n dim cs e, proper_fleet n dim cs -> interaction_error cs = Some e ->
  0 < first_step cs -> 0 < end_time cs -> Forall (fun c => 0 < norm (config c)) cs ->
  Forall (from_config n dim) cs -> (e = 0 <-> in_formation n dim cs /\ centred dim cs).
Proof. intros n dim cs e P. exact (error_formation n dim cs P e). Qed.
