(** The vector of all variables. *)
From Coq Require Import String Ascii Reals List Arith Bool Lia Lra.
From Verif Require Import Spline_Model Store_Model Store_Spec Store_Proofs.
From Verif Require Opti_Model Opti_Proofs2.
Import ListNotations.
Local Open Scope R_scope.
Local Notation length := List.length.
Local Notation dget := Opti_Model.dget.
Local Notation dset := Opti_Model.dset.

Lemma size_numbers : forall l, size l = numbers l.
Proof. induction l as [|[k [r q]] l IH]; [reflexivity|]. cbn [numbers]. rewrite <- IH. reflexivity. Qed.

Lemma cut_shape : forall m n x, (m * n <= length x)%nat -> has_shape (m, n) (cut m n x).
Proof.
  intros m. induction n as [|n IH]; intros x H; [split; [reflexivity|intros col []]|].
  destruct (IH (skipn m x)) as [A B]; [rewrite skipn_length; nia|]. cbn [cut]. split.
  - cbn. rewrite A. reflexivity.
  - intros col [<-|Hc]; [cbn; rewrite firstn_length; nia|]. apply B, Hc.
Qed.
Lemma concat_cut : forall m n x, (m * n <= length x)%nat -> concat (cut m n x) = firstn (m * n) x.
Proof.
  intros m. induction n as [|n IH]; intros x H; [rewrite Nat.mul_0_r; reflexivity|]. cbn [cut concat].
  rewrite IH by (rewrite skipn_length; nia). replace (m * S n)%nat with (m + m * n)%nat by lia.
  rewrite <- (firstn_skipn m x) at 3. rewrite firstn_app, firstn_firstn, firstn_length.
  replace (Init.Nat.min (m + m * n) m) with m by lia. f_equal.
  replace (m + m * n - Init.Nat.min m (length x))%nat with (m * n)%nat by nia. reflexivity.
Qed.
Lemma cut_concat : forall m n a y, has_shape (m, n) a -> cut m n (concat a ++ y) = a.
Proof.
  intros m n a y [H1 H2]. cbn [fst snd] in *. subst n. induction a as [|col a IH]; [reflexivity|]. cbn [length cut concat].
  assert (L : length col = m) by (apply H2; left; reflexivity). rewrite <- app_assoc. f_equal.
  - rewrite firstn_app, L, Nat.sub_diag, firstn_O, app_nil_r. rewrite <- L. apply firstn_all.
  - rewrite skipn_app, L, Nat.sub_diag. cbn [skipn]. rewrite <- L at 2. rewrite skipn_all. cbn [app]. apply IH.
    intros c Hc. apply H2. right. exact Hc.
Qed.
Lemma concat_shape : forall m n (a : arr), has_shape (m, n) a -> length (concat a) = (m * n)%nat.
Proof.
  intros m n a [H1 H2]. cbn [fst snd] in *. subst n. induction a as [|col a IH]; [cbn; lia|]. cbn [concat length].
  rewrite app_length, IH, H2; [nia|left; reflexivity|]. intros c Hc. apply H2. right. exact Hc.
Qed.

Definition fit (l : list (key * shape)) (s : store) : Prop :=
  Forall2 (fun ks ka => fst ks = fst ka /\ has_shape (snd ks) (snd ka)) l s.
Lemma uncat_fit : forall l x, (numbers l <= length x)%nat -> fit l (uncat l x).
Proof.
  induction l as [|[k [r q]] l IH]; intros x H; cbn [uncat]; constructor; cbn [fst snd].
  - split; [reflexivity|]. apply cut_shape. cbn in H. lia.
  - apply IH. rewrite skipn_length. cbn in H. lia.
Qed.
Lemma cat_uncat : forall l x, length x = numbers l -> cat (uncat l x) = x.
Proof.
  induction l as [|[k [r q]] l IH]; intros x H; cbn [uncat numbers] in *.
  - destruct x; [reflexivity|discriminate].
  - unfold cat. cbn [map concat snd fst]. fold (cat (uncat l (skipn (r * q) x))). rewrite concat_cut by lia.
    rewrite IH by (rewrite skipn_length; lia). apply firstn_skipn.
Qed.
Lemma uncat_cat : forall l s, fit l s -> uncat l (cat s) = s.
Proof.
  intros l s H. induction H as [|[k [r q]] [k' a] l s [E Hs] H IH]; [reflexivity|]. cbn [fst snd] in *. subst k'.
  cbn [uncat]. unfold cat. cbn [map concat snd]. fold (cat s). cbn [fst snd]. rewrite cut_concat by exact Hs. f_equal.
  rewrite skipn_app. rewrite (concat_shape r q a Hs), Nat.sub_diag. cbn [skipn].
  rewrite <- (concat_shape r q a Hs), skipn_all. exact IH.
Qed.
Lemma cat_length : forall l s, fit l s -> length (cat s) = numbers l.
Proof.
  intros l s H. induction H as [|[k [r q]] [k' a] l s [E Hs] H IH]; [reflexivity|]. cbn [fst snd] in *.
  unfold cat. cbn [map concat snd]. fold (cat s). rewrite app_length, IH, (concat_shape r q a Hs). reflexivity.
Qed.

(** set_variables of a whole vector *)
Lemma set_all_spec : forall cs x s, set_all cs x = Ok s -> holds cs s /\ cat s = x.
Proof.
  intros cs x s H. unfold set_all in H. destruct (length x =? size (layout cs))%nat eqn:E; [|discriminate].
  inv H. apply Nat.eqb_eq in E. rewrite size_numbers in E. split.
  - apply uncat_fit. lia.
  - apply cat_uncat. exact E.
Qed.
Lemma set_all_works : forall cs x, (exists s, set_all cs x = Ok s) <-> length x = numbers (layout cs).
Proof.
  intros cs x. unfold set_all. rewrite size_numbers. destruct (length x =? numbers (layout cs))%nat eqn:E.
  - apply Nat.eqb_eq in E. split; eauto.
  - apply Nat.eqb_neq in E. split; [intros [s H]; discriminate|contradiction].
Qed.
Lemma set_all_cat : forall cs s, holds cs s -> set_all cs (cat s) = Ok s.
Proof.
  intros cs s H. unfold set_all. rewrite size_numbers, (cat_length (layout cs) s H), Nat.eqb_refl. f_equal. apply uncat_cat. exact H.
Qed.
Lemma holds_length : forall cs s, holds cs s -> length (cat s) = numbers (layout cs).
Proof. intros cs s H. apply cat_length. exact H. Qed.

(** where the numbers of an entry are *)
Lemma nth_concat : forall m (a : arr) i j, (forall col, In col a -> length col = m) -> (i < m)%nat -> (j < length a)%nat ->
  nth (j * m + i) (concat a) 0 = nth i (nth j a []) 0.
Proof.
  intros m. induction a as [|col a IH]; intros i j H Hi Hj; [cbn in Hj; lia|]. cbn [concat].
  assert (L : length col = m) by (apply H; left; reflexivity). destruct j as [|j].
  - cbn [Nat.mul Nat.add nth]. apply app_nth1. lia.
  - rewrite app_nth2 by nia. cbn [nth]. rewrite L. replace (S j * m + i - m)%nat with (j * m + i)%nat by nia.
    apply IH; [intros; apply H; right; assumption|exact Hi|cbn in Hj; lia].
Qed.
Lemma fit_app : forall pre post s, fit (pre ++ post) s -> exists s1 s2, s = (s1 ++ s2)%list /\ fit pre s1 /\ fit post s2.
Proof. intros pre post s H. apply Forall2_app_inv_l in H. destruct H as (s1 & s2 & H1 & H2 & E). exists s1, s2. auto. Qed.
Lemma cat_app : forall s1 s2, cat (s1 ++ s2) = (cat s1 ++ cat s2)%list.
Proof. intros. unfold cat. rewrite map_app, concat_app. reflexivity. Qed.
Lemma entry_place : forall cs s pre post c n r q i j a, family cs -> holds cs s -> In c cs ->
  layout cs = (pre ++ ((label c, n), (r, q)) :: post)%list -> reads s c n a -> (i < r)%nat -> (j < q)%nat ->
  (numbers pre + j * r + i < length (cat s))%nat /\
  nth (numbers pre + j * r + i) (cat s) 0 = entry_number a i j.
Proof.
  intros cs s pre post c n r q i j a F H Hc E Ha Hi Hj.
  pose proof H as H0. unfold holds in H0. fold (layout cs) in H0. rewrite E in H0.
  destruct (fit_app _ _ _ H0) as (s1 & s2 & -> & H1 & H2). inversion H2 as [|x0 y l0 l' [Ek Hs] H4 Q1 Q2]; subst. destruct y as [k' a']. cbn [fst snd] in *. subst k'.
  assert (a' = a).
  { apply (reads_get cs) in Ha; auto. assert (X : reads (s1 ++ ((label c, n), a') :: l') c n a') by (unfold reads; apply in_or_app; right; left; reflexivity).
    apply (reads_get cs) in X; auto. pose proof (eq_trans (eq_sym X) Ha) as Y. inversion Y. reflexivity. }
  subst a'. rewrite cat_app. unfold cat at 2 4. cbn [map concat snd]. fold (cat l').
  pose proof (cat_length _ _ H1) as L1. pose proof (concat_shape r q a Hs) as L2. split.
  - rewrite !app_length, L1, L2. nia.
  - rewrite app_nth2 by lia. rewrite L1. replace (numbers pre + j * r + i - numbers pre)%nat with (j * r + i)%nat by lia.
    rewrite app_nth1 by (rewrite L2; nia). destruct Hs as [S1 S2]. cbn [fst snd] in *. unfold entry_number.
    apply nth_concat; auto. lia.
Qed.

(** set_variables for one child *)
Lemma fold_set_get : forall (u : store) (s : store) k, NoDup (map fst u) ->
  dget key_eqb k (fold_left (fun t ka => dset key_eqb (fst ka) (snd ka) t) u s) =
    match dget key_eqb k u with Some a => Some a | None => dget key_eqb k s end.
Proof.
  induction u as [|[k0 a0] u IH]; intros s k N; [reflexivity|]. cbn [map fst] in N. inv N. cbn [fold_left fst snd Opti_Model.dget].
  rewrite IH by assumption. rewrite kget_set. destruct (key_eqb k k0) eqn:E; [|reflexivity].
  apply key_ok in E. subst k0. destruct (dget key_eqb k u) eqn:G; [|reflexivity].
  exfalso. apply H1. apply kget_in in G. apply (in_map fst) in G. exact G.
Qed.
Definition mine (cs : list child) (c : child) : list (key * shape) :=
  filter (fun ks => String.eqb (fst (fst ks)) (label c)) (layout cs).
Lemma filter_nodup_keys : forall (V : Type) (p : key * V -> bool) l, NoDup (map fst l) -> NoDup (map fst (filter p l)).
Proof.
  intros V p. induction l as [|x l IH]; intros H; [constructor|]. cbn [map] in H. inv H. cbn. destruct (p x); [|auto].
  cbn. constructor; [|auto]. intros X. apply H2. apply in_map_iff in X. destruct X as [y [E Y]]. apply filter_In in Y.
  rewrite <- E. apply in_map. apply Y.
Qed.
Lemma fit_keys : forall l s, fit l s -> map fst s = map fst l.
Proof. intros l s H. induction H as [|ks ka l s [E _] H IH]; [reflexivity|]. cbn [map]. f_equal; [symmetry; exact E|exact IH]. Qed.
Lemma fit_holds_fold : forall cs u s, family cs -> holds cs s -> 
  (forall k a, In (k, a) u -> exists sh, In (k, sh) (layout cs) /\ has_shape sh a) ->
  holds cs (fold_left (fun t ka => dset key_eqb (fst ka) (snd ka) t) u s).
Proof.
  intros cs. induction u as [|[k a] u IH]; intros s F H G; [exact H|]. cbn [fold_left fst snd]. apply IH; [exact F| |].
  - destruct (G k a (or_introl eq_refl)) as (sh & A & B). apply (kset_holds cs s k a sh); auto. apply layout_nodup, F.
  - intros k' a' X. apply G. right. exact X.
Qed.
Lemma filter_fit : forall l s (p : key -> bool), fit l s ->
  fit (filter (fun ks => p (fst ks)) l) (filter (fun ka => p (fst ka)) s).
Proof.
  intros l s p H. induction H as [|ks ka l s [E Hs] H IH]; [constructor|]. cbn [filter]. rewrite <- E.
  destruct (p (fst ks)); [constructor; auto|exact IH].
Qed.
Lemma same_gets : forall l (s s' : store), fit l s -> fit l s' -> NoDup (map fst l) ->
  (forall k, In k (map fst l) -> dget key_eqb k s = dget key_eqb k s') -> s = s'.
Proof.
  intros l s s' H. revert s'. induction H as [|[k sh] [k1 a] l s [E Hs] H IH]; intros s' H' N G; inv H'; [reflexivity|].
  destruct y as [k2 a2]. destruct H2 as [E2 Hs2]. cbn [fst snd] in *. subst k1 k2. inv N. f_equal.
  - f_equal. specialize (G k (or_introl eq_refl)). cbn in G. rewrite (proj2 (key_ok k k) eq_refl) in G. congruence.
  - apply IH; auto. intros k' Hk'. specialize (G k' (or_intror Hk')). cbn in G.
    destruct (key_eqb k' k) eqn:Ek; [apply key_ok in Ek; subst; contradiction|]. exact G.
Qed.
Lemma dget_filter : forall (V : Type) (p : key -> bool) (s : list (key * V)) k, p k = true ->
  dget key_eqb k (filter (fun ka => p (fst ka)) s) = dget key_eqb k s.
Proof.
  intros V p. induction s as [|[k0 a] s IH]; intros k Hk; [reflexivity|]. cbn [filter fst Opti_Model.dget].
  destruct (p k0) eqn:E; cbn [Opti_Model.dget].
  - destruct (key_eqb k k0); [reflexivity|apply IH, Hk].
  - destruct (key_eqb k k0) eqn:Ek; [apply key_ok in Ek; subst; congruence|apply IH, Hk].
Qed.
Lemma set_child_spec : forall cs c x s s', family cs -> holds cs s -> In c cs -> set_child cs c x s = Ok s' ->
  holds cs s' /\ cat (filter (fun ka => String.eqb (fst (fst ka)) (label c)) s') = x /\
  forall c' n a, label c' <> label c -> (reads s' c' n a <-> reads s c' n a).
Proof.
  intros cs c x s s' F H Hc E. unfold set_child in E. fold (mine cs c) in E.
  destruct (existsb (fun d => (label d =? label c)%string) cs); [|discriminate].
  destruct (length x =? size (mine cs c))%nat eqn:L; [|discriminate]. inv E. apply Nat.eqb_eq in L. rewrite size_numbers in L.
  assert (N0 : NoDup (map fst (layout cs))) by (apply layout_nodup, F).
  assert (Nm : NoDup (map fst (mine cs c))) by (apply filter_nodup_keys, N0).
  assert (Fu : fit (mine cs c) (uncat (mine cs c) x)) by (apply uncat_fit; lia).
  assert (Nu : NoDup (map fst (uncat (mine cs c) x))) by (rewrite (fit_keys _ _ Fu); exact Nm).
  match goal with |- holds _ ?X /\ _ => set (s' := X) end.
  assert (Hh : holds cs s').
  { apply fit_holds_fold; auto. intros k a Hk. destruct (forall2_in_r _ _ _ _ _ (k, a) Fu Hk) as [[k' sh] [Hm [E2 Hs]]].
    cbn in E2, Hs. subst k'. exists sh. split; [|exact Hs]. apply filter_In in Hm. apply Hm. }
  split; [exact Hh|]. split.
  - rewrite <- (cat_uncat (mine cs c) x L). f_equal.
    apply (same_gets (mine cs c)).
    + apply (filter_fit (layout cs) s' (fun k => (fst k =? label c)%string)). exact Hh.
    + exact Fu.
    + exact Nm.
    + intros k Hk. assert (Hl : (fst k =? label c)%string = true).
      { apply in_map_iff in Hk. destruct Hk as [[k' sh] [Ek Hk]]. cbn in Ek. subst k'. apply filter_In in Hk. apply Hk. }
      rewrite (dget_filter _ (fun k => (fst k =? label c)%string)) by exact Hl. unfold s'. rewrite fold_set_get by exact Nu.
      destruct (dget key_eqb k (uncat (mine cs c) x)) eqn:G; [reflexivity|]. apply kget_none in G. rewrite (fit_keys _ _ Fu) in G. contradiction.
  - intros c' n a Hne. rewrite (reads_get cs) by auto. rewrite (reads_get cs) by auto. unfold s'. rewrite fold_set_get by exact Nu.
    destruct (dget key_eqb (label c', n) (uncat (mine cs c) x)) eqn:G; [|tauto]. exfalso.
    apply kget_in in G. apply (in_map fst) in G. rewrite (fit_keys _ _ Fu) in G. apply in_map_iff in G.
    destruct G as [[k sh] [Ek G]]. cbn in Ek. subst k. apply filter_In in G. destruct G as [_ G]. cbn in G. apply String.eqb_eq in G. contradiction.
Qed.
Lemma set_child_works : forall cs c x s, In c cs ->
  ((exists s', set_child cs c x s = Ok s') <-> length x = numbers (filter (fun ks => String.eqb (fst (fst ks)) (label c)) (layout cs))).
Proof.
  intros cs c x s Hc. unfold set_child. fold (mine cs c).
  assert (E : existsb (fun d => (label d =? label c)%string) cs = true).
  { apply existsb_exists. exists c. split; [exact Hc|apply String.eqb_refl]. }
  rewrite E, size_numbers. destruct (length x =? numbers (mine cs c))%nat eqn:L.
  - apply Nat.eqb_eq in L. split; eauto.
  - apply Nat.eqb_neq in L. split; [intros [s' H]; discriminate|contradiction].
Qed.
