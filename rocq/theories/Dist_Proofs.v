(** Proofs about the structure of distributed problems and the counters. *)

From Coq Require Import String List Arith ZArith Bool Lia Permutation Sorting.Sorted.
From Verif Require Import Dist_Model Dist_Spec.
Import ListNotations.
Open Scope string_scope.
Open Scope list_scope.
Open Scope nat_scope.

(** ** Sorted index lists *)

Lemma insert_in : forall x l i, In i (insert x l) <-> i = x \/ In i l.
Proof.
  intros x l i. induction l as [|y l IH]; simpl.
  - intuition.
  - destruct (x <=? y); simpl; [intuition|]. rewrite IH. intuition.
Qed.

Lemma isort_in : forall l i, In i (isort l) <-> In i l.
Proof.
  induction l as [|x l IH]; intros i; simpl; [tauto|]. rewrite insert_in, IH. intuition.
Qed.

Lemma add_new_in : forall l j i, In i (add_new l j) <-> In i l \/ i = j.
Proof.
  intros l j i. unfold add_new. destruct (existsb (Nat.eqb j) l) eqn:E.
  - apply existsb_exists in E as [y [Hy Ey]]. apply Nat.eqb_eq in Ey. subst. intuition; subst; auto.
  - rewrite in_app_iff. simpl. intuition.
Qed.

Lemma add_all_in : forall is l i, In i (fold_left add_new is l) <-> In i l \/ In i is.
Proof.
  induction is as [|j is IH]; intros l i; simpl; [tauto|]. rewrite IH, add_new_in. intuition.
Qed.

Lemma add_indices_in : forall l is i, In i (add_indices l is) <-> In i l \/ In i is.
Proof. intros. unfold add_indices. now rewrite isort_in, add_all_in. Qed.

Lemma NoDup_snoc' : forall (l : list nat) x, NoDup l -> ~ In x l -> NoDup (l ++ [x]).
Proof.
  induction l as [|y l IH]; intros x H N; simpl.
  - constructor; [simpl; tauto|constructor].
  - inversion H; subst. constructor.
    + rewrite in_app_iff. simpl in *. intuition.
    + apply IH; trivial. simpl in N. tauto.
Qed.

Lemma add_new_nodup : forall l j, NoDup l -> NoDup (add_new l j).
Proof.
  intros l j H. unfold add_new. destruct (existsb (Nat.eqb j) l) eqn:E; trivial.
  apply NoDup_snoc'; trivial. intros K.
  assert (existsb (Nat.eqb j) l = true); [|congruence].
  apply existsb_exists. exists j. split; [trivial|apply Nat.eqb_refl].
Qed.

Lemma add_all_nodup : forall is l, NoDup l -> NoDup (fold_left add_new is l).
Proof. induction is; intros; simpl; trivial. apply IHis. now apply add_new_nodup. Qed.

Lemma insert_perm : forall x l, Permutation (insert x l) (x :: l).
Proof.
  intros x l. induction l as [|y l IH]; simpl; [reflexivity|].
  destruct (x <=? y); [reflexivity|]. rewrite IH. apply perm_swap.
Qed.

Lemma isort_perm : forall l, Permutation (isort l) l.
Proof. induction l; simpl; [reflexivity|]. rewrite insert_perm. now constructor. Qed.

Lemma insert_sorted : forall x l, StronglySorted le l -> StronglySorted le (insert x l).
Proof.
  intros x l H. induction H as [|y l H IH F]; simpl.
  - constructor; constructor.
  - destruct (Nat.leb_spec x y).
    + constructor; [now constructor|]. constructor; [lia|].
      eapply Forall_impl; [|exact F]. intros z Hz. simpl in Hz. lia.
    + constructor; [trivial|]. apply Forall_forall. intros z Hz. apply insert_in in Hz as [->|Hz]; [lia|].
      rewrite Forall_forall in F. now apply F.
Qed.

Lemma isort_sorted : forall l, StronglySorted le (isort l).
Proof. induction l; simpl; [constructor|]. now apply insert_sorted. Qed.

Lemma sorted_increasing : forall l, StronglySorted le l -> NoDup l -> increasing l.
Proof.
  intros l H. induction H as [|y l H IH F]; intros N i j d Hij Hj; simpl in Hj; [lia|].
  inversion N; subst. destruct j as [|j]; [lia|]. destruct i as [|i]; simpl.
  - rewrite Forall_forall in F. assert (I : In (nth j l d) l) by (apply nth_In; lia).
    specialize (F _ I). assert (y <> nth j l d) by (intros ->; tauto). lia.
  - apply IH; trivial; lia.
Qed.

Lemma increasing_nodup : forall l, increasing l -> NoDup l.
Proof.
  intros l H. apply (NoDup_nth l 0). intros i j Hi Hj E.
  destruct (Nat.lt_trichotomy i j) as [K|[K|K]]; trivial.
  - specialize (H i j 0 K Hj). lia.
  - specialize (H j i 0 K Hi). lia.
Qed.

Lemma add_indices_increasing : forall l is, NoDup l -> increasing (add_indices l is).
Proof.
  intros l is H. apply sorted_increasing; [apply isort_sorted|].
  eapply Permutation_NoDup; [symmetry; apply isort_perm|]. now apply add_all_nodup.
Qed.

(** ** Tables *)

Section Table.
  Context {K : Type} (eqb : K -> K -> bool).
  Hypothesis eqb_ok : forall a b, eqb a b = true <-> a = b.

  Lemma tupd_in : forall T k is k' i,
    In i (tupd eqb T k is k') <-> In i (T k') \/ (k' = k /\ In i is).
  Proof.
    intros. unfold tupd. destruct (eqb k' k) eqn:E.
    - apply eqb_ok in E. subst. rewrite add_indices_in. intuition.
    - assert (k' <> k) by (intros ->; rewrite (proj2 (eqb_ok k k) eq_refl) in E; discriminate). intuition.
  Qed.

  Lemma tupd_inc : forall T k is, (forall k', increasing (T k')) -> forall k', increasing (tupd eqb T k is k').
  Proof.
    intros T k is H k'. unfold tupd. destruct (eqb k' k); [|apply H].
    apply add_indices_increasing, increasing_nodup, H.
  Qed.

  Lemma tupds_in : forall (X : Type) (kf : X -> K) (vf : X -> list nat) l T k i,
    In i (fold_left (fun T p => tupd eqb T (kf p) (vf p)) l T k) <->
    In i (T k) \/ exists p, In p l /\ k = kf p /\ In i (vf p).
  Proof.
    intros X kf vf l. induction l as [|p l IH]; intros T k i; simpl.
    - split; [tauto|]. intros [H|[p [[] _]]]. exact H.
    - rewrite IH, tupd_in. split.
      + intros [[H|[H1 H2]]|[q [H1 H2]]]; [now left| |].
        * right. exists p. auto.
        * right. exists q. auto.
      + intros [H|[q [[->|H1] [H2 H3]]]]; [tauto|tauto|]. right. exists q. auto.
  Qed.

  Lemma tupds_inc : forall (X : Type) (kf : X -> K) (vf : X -> list nat) l T,
    (forall k, increasing (T k)) ->
    forall k, increasing (fold_left (fun T p => tupd eqb T (kf p) (vf p)) l T k).
  Proof.
    intros X kf vf l. induction l as [|p l IH]; intros T H k; simpl; [apply H|].
    apply IH. intros k'. now apply tupd_inc.
  Qed.
End Table.

Lemma child_eqb_ok : forall a b, child_eqb a b = true <-> a = b.
Proof.
  intros [a1 a2] [b1 b2]. unfold child_eqb. simpl. rewrite andb_true_iff, !Nat.eqb_eq.
  split; [intros [-> ->]; reflexivity|]. intros E; injection E as -> ->. auto.
Qed.

Lemma child_eqb_no : forall a b, child_eqb a b = false <-> a <> b.
Proof.
  intros a b. pose proof (child_eqb_ok a b) as H.
  destruct (child_eqb a b); split; intros K; try congruence.
  - exfalso. apply K. now apply H.
  - intros E. apply H in E. congruence.
Qed.

Lemma key1_ok : forall a b, key1_eqb a b = true <-> a = b.
Proof.
  intros [[u c] n] [[u' c'] n']. unfold key1_eqb.
  rewrite !andb_true_iff, Nat.eqb_eq, child_eqb_ok, String.eqb_eq.
  split; [intros [[-> ->] ->]; reflexivity|]. intros E; injection E as -> -> ->. auto.
Qed.

Lemma key2_ok : forall a b, key2_eqb a b = true <-> a = b.
Proof.
  intros [[[u v] c] n] [[[u' v'] c'] n']. unfold key2_eqb.
  rewrite !andb_true_iff, !Nat.eqb_eq, child_eqb_ok, String.eqb_eq.
  split; [intros [[[-> ->] ->] ->]; reflexivity|]. intros E; injection E as -> -> -> ->. auto.
Qed.

Lemma own_in : forall T c dic u x n i,
  In i (own_entries T c dic (u, x, n)) <->
  In i (T (u, x, n)) \/ (x = c /\ u = fst c /\ exists is, In (n, is) dic /\ In i is).
Proof.
  intros. unfold own_entries.
  rewrite (tupds_in key1_eqb key1_ok _ (fun p : string * list nat => (fst c, c, fst p)) (fun p => snd p)).
  split.
  - intros [H|[[m is] [H1 [H2 H3]]]]; [now left|]. simpl in *. injection H2 as -> -> ->.
    right. split; [trivial|]. split; [trivial|]. exists is. auto.
  - intros [H|[-> [-> [is [H1 H2]]]]]; [now left|]. right. exists (n, is). auto.
Qed.

Lemma own_inc : forall T c dic, (forall k, increasing (T k)) -> forall k, increasing (own_entries T c dic k).
Proof.
  intros. unfold own_entries.
  apply (tupds_inc key1_eqb _ (fun p : string * list nat => (fst c, c, fst p)) (fun p => snd p)); trivial.
Qed.

Lemma other_in : forall c T q u v x n i,
  In i (other_entries c T q (u, v, x, n)) <->
  In i (T (u, v, x, n)) \/
  (x = fst q /\ x <> c /\ u = fst c /\ v = fst x /\ exists is, In (n, is) (snd q) /\ In i is).
Proof.
  intros c T [d dic] u v x n i. unfold other_entries. cbn [fst snd].
  destruct (child_eqb c d) eqn:E.
  - apply child_eqb_ok in E. subst d. intuition.
  - apply child_eqb_no in E.
    rewrite (tupds_in key2_eqb key2_ok _ (fun p : string * list nat => (fst c, fst d, d, fst p)) (fun p => snd p)).
    split.
    + intros [H|[[m is] [H1 [H2 H3]]]]; [now left|]. simpl in *. injection H2 as -> -> -> ->.
      right. repeat split; auto. exists is. auto.
    + intros [H|[-> [H0 [-> [-> [is [H1 H2]]]]]]]; [now left|]. right. exists (n, is). auto.
Qed.

Lemma other_inc : forall c T q, (forall k, increasing (T k)) -> forall k, increasing (other_entries c T q k).
Proof.
  intros c T [d dic] H k. unfold other_entries. cbn [fst snd]. destruct (child_eqb c d); [apply H|].
  apply (tupds_inc key2_eqb _ (fun p : string * list nat => (fst c, fst d, d, fst p)) (fun p => snd p)); trivial.
Qed.

Lemma others_in : forall c dep T u v x n i,
  In i (fold_left (other_entries c) dep T (u, v, x, n)) <->
  In i (T (u, v, x, n)) \/ (x <> c /\ u = fst c /\ v = fst x /\ uses dep x n i).
Proof.
  intros c dep. induction dep as [|q dep IH]; intros T u v x n i; simpl.
  - split; [tauto|]. intros [H|[_ [_ [_ [dic [is [[] _]]]]]]]. exact H.
  - rewrite IH, other_in. destruct q as [d dic]. cbn [fst snd]. unfold uses. split.
    + intros [[H|[-> [H1 [H2 [H3 [is [H4 H5]]]]]]]|[H1 [H2 [H3 [dic' [is [H4 [H5 H6]]]]]]]].
      * now left.
      * right. repeat split; auto. exists dic, is. simpl; auto.
      * right. repeat split; auto. exists dic', is. simpl; auto.
    + intros [H|[H1 [H2 [H3 [dic' [is [[H4|H4] [H5 H6]]]]]]]].
      * tauto.
      * injection H4 as -> ->. left. right. repeat split; auto. exists is. auto.
      * right. repeat split; auto. exists dic', is. auto.
Qed.

Lemma others_inc : forall c dep T, (forall k, increasing (T k)) ->
  forall k, increasing (fold_left (other_entries c) dep T k).
Proof.
  intros c dep. induction dep; intros T H k; simpl; [apply H|].
  apply IHdep. intros k'. now apply other_inc.
Qed.

Lemma nghbs_in : forall c dep T u v,
  In v (fold_left (add_nghb c) dep T u) <->
  In v (T u) \/ (u = fst c /\ exists x, x <> c /\ v = fst x /\ takes_part dep x).
Proof.
  intros c dep. induction dep as [|[d dic] dep IH]; intros T u v; simpl.
  - split; [tauto|]. intros [H|[_ [x [_ [_ [dic []]]]]]]. exact H.
  - rewrite IH. unfold add_nghb. cbn [fst]. unfold takes_part. destruct (child_eqb c d) eqn:E.
    + apply child_eqb_ok in E. subst d. split.
      * intros [H|[H1 [x [H2 [H3 [dc H4]]]]]]; [now left|]. right. split; [trivial|].
        exists x. split; [trivial|]. split; [trivial|]. exists dc. simpl; auto.
      * intros [H|[H1 [x [H2 [H3 [dc [H4|H4]]]]]]]; [now left| |].
        -- injection H4 as -> ->. tauto.
        -- right. split; [trivial|]. exists x. split; [trivial|]. split; [trivial|]. exists dc; trivial.
    + apply child_eqb_no in E. destruct (Nat.eqb_spec u (fst c)) as [->|Eu].
      * rewrite add_new_in. split.
        -- intros [[H| ->]|[_ [x [H2 [H3 [dc H4]]]]]].
           ++ now left.
           ++ right. split; [trivial|]. exists d. split; [congruence|]. split; [trivial|]. exists dic. simpl; auto.
           ++ right. split; [trivial|]. exists x. split; [trivial|]. split; [trivial|]. exists dc. simpl; auto.
        -- intros [H|[_ [x [H2 [H3 [dc [H4|H4]]]]]]].
           ++ tauto.
           ++ injection H4 as -> ->. subst. tauto.
           ++ right. split; [trivial|]. exists x. split; [trivial|]. split; [trivial|]. exists dc; trivial.
      * split; [tauto|]. intros [H|[H _]]; tauto.
Qed.

Lemma nghbs_nodup : forall c dep T, (forall u, NoDup (T u)) -> forall u, NoDup (fold_left (add_nghb c) dep T u).
Proof.
  intros c dep. induction dep as [|q dep IH]; intros T H u; simpl; [apply H|].
  apply IH. intros w. unfold add_nghb. destruct (child_eqb c (fst q)); [apply H|].
  destruct (w =? fst c); [|apply H]. apply add_new_nodup, H.
Qed.

(** ** One constraint *)

Lemma child_steps : forall k dep l T,
  q_i (fold_left (child_step k dep) l T) = fold_left (fun X p => own_entries X (fst p) (snd p)) l (q_i T) /\
  q_ij (fold_left (child_step k dep) l T) = fold_left (fun X p => fold_left (other_entries (fst p)) dep X) l (q_ij T) /\
  nghb (fold_left (child_step k dep) l T) = fold_left (fun X p => fold_left (add_nghb (fst p)) dep X) l (nghb T) /\
  gcon (fold_left (child_step k dep) l T) =
    fold_left (fun X p u => if u =? fst (fst p) then X u ++ [k] else X u) l (gcon T).
Proof.
  intros k dep l. induction l as [|[c dic] l IH]; intros T; [repeat split|].
  cbn [fold_left]. specialize (IH (child_step k dep T (c, dic))). exact IH.
Qed.

Lemma con_q_i : forall T k dep u c n i,
  In i (q_i (constraint_step T (k, dep)) (u, c, n)) <->
  In i (q_i T (u, c, n)) \/ (u = fst c /\ uses dep c n i).
Proof.
  intros T k dep u c n i. unfold constraint_step. cbn [fst snd].
  rewrite (proj1 (child_steps k dep dep T)). generalize (q_i T) as X. unfold uses.
  generalize dep as l. induction l as [|[d dic] l IH]; intros X; cbn [fold_left].
  - simpl. split; [tauto|]. intros [H|[_ [dic [is [[] _]]]]]. exact H.
  - cbn [fst snd]. rewrite IH, own_in. split.
    + intros [[H|[-> [-> [is [H1 H2]]]]]|[H [dc [is [H1 H2]]]]]; [now left| |].
      * right. split; [trivial|]. exists dic, is. simpl; auto.
      * right. split; [trivial|]. exists dc, is. simpl; tauto.
    + intros [H|[H [dc [is [[H1|H1] [H2 H3]]]]]]; [tauto| |].
      * injection H1 as -> ->. left. right. split; [trivial|]. split; [trivial|]. exists is. auto.
      * right. split; [trivial|]. exists dc, is. auto.
Qed.

Lemma con_q_ij : forall T k dep u v c n i,
  In i (q_ij (constraint_step T (k, dep)) (u, v, c, n)) <->
  In i (q_ij T (u, v, c, n)) \/
  (v = fst c /\ uses dep c n i /\ exists d, d <> c /\ u = fst d /\ takes_part dep d).
Proof.
  intros T k dep u v c n i. unfold constraint_step. cbn [fst snd].
  rewrite (proj1 (proj2 (child_steps k dep dep T))). generalize (q_ij T) as X.
  assert (G : forall (l : depend) X, In i (fold_left (fun X p => fold_left (other_entries (fst p)) dep X) l X (u, v, c, n)) <->
     In i (X (u, v, c, n)) \/ (v = fst c /\ uses dep c n i /\ exists d, d <> c /\ u = fst d /\ exists dic, In (d, dic) l)).
  { induction l as [|[d dic] l IH]; intros X; cbn [fold_left].
    - split; [tauto|]. intros [H|[_ [_ [x [_ [_ [dc []]]]]]]]. exact H.
    - cbn [fst snd]. rewrite IH, others_in. split.
      + intros [[H|[H1 [H2 [H3 H4]]]]|[H1 [H2 [x [H3 [H4 [dc H5]]]]]]]; [now left| |].
        * right. split; [trivial|]. split; [trivial|]. exists d. split; [congruence|].
          split; [trivial|]. exists dic. simpl; auto.
        * right. split; [trivial|]. split; [trivial|]. exists x. split; [trivial|].
          split; [trivial|]. exists dc. simpl; auto.
      + intros [H|[H1 [H2 [x [H3 [H4 [dc [H5|H5]]]]]]]]; [tauto| |].
        * injection H5 as -> ->. left. right. repeat split; auto.
        * right. split; [trivial|]. split; [trivial|]. exists x. split; [trivial|].
          split; [trivial|]. exists dc; trivial. }
  intros X. apply G.
Qed.

Lemma con_nghb : forall T k dep u v,
  In v (nghb (constraint_step T (k, dep)) u) <->
  In v (nghb T u) \/
  exists c d, c <> d /\ u = fst c /\ v = fst d /\ takes_part dep c /\ takes_part dep d.
Proof.
  intros T k dep u v. unfold constraint_step. cbn [fst snd].
  rewrite (proj1 (proj2 (proj2 (child_steps k dep dep T)))). generalize (nghb T) as X.
  assert (G : forall (l : depend) X, In v (fold_left (fun X p => fold_left (add_nghb (fst p)) dep X) l X u) <->
     In v (X u) \/ exists c d, c <> d /\ u = fst c /\ v = fst d /\ (exists dic, In (c, dic) l) /\ takes_part dep d).
  { induction l as [|[x dic] l IH]; intros X; cbn [fold_left].
    - split; [tauto|]. intros [H|[c [d [_ [_ [_ [[dc []] _]]]]]]]. exact H.
    - cbn [fst snd]. rewrite IH, nghbs_in. split.
      + intros [[H|[H1 [d [H2 [H3 H4]]]]]|[c [d [H1 [H2 [H3 [[dc H4] H5]]]]]]]; [now left| |].
        * right. exists x, d. split; [congruence|]. split; [trivial|]. split; [trivial|].
          split; [|trivial]. exists dic. simpl; auto.
        * right. exists c, d. do 3 (split; [trivial|]). split; [|trivial]. exists dc. simpl; auto.
      + intros [H|[c [d [H1 [H2 [H3 [[dc [H4|H4]] H5]]]]]]]; [tauto| |].
        * injection H4 as -> ->. left. right. split; [trivial|]. exists d. split; [congruence|]. auto.
        * right. exists c, d. do 3 (split; [trivial|]). split; [|trivial]. exists dc; trivial. }
  intros X. apply G.
Qed.

Lemma con_gcon : forall T k dep u j,
  In j (gcon (constraint_step T (k, dep)) u) <->
  In j (gcon T u) \/ (j = k /\ exists c, u = fst c /\ takes_part dep c).
Proof.
  intros T k dep u j. unfold constraint_step. cbn [fst snd].
  rewrite (proj2 (proj2 (proj2 (child_steps k dep dep T)))). generalize (gcon T) as X. unfold takes_part.
  generalize dep as l. induction l as [|[d dic] l IH]; intros X; cbn [fold_left].
  - split; [tauto|]. intros [H|[_ [c [_ [dc []]]]]]. exact H.
  - cbn [fst]. rewrite IH. cbn [fst]. destruct (Nat.eqb_spec u (fst d)) as [E|E].
    + rewrite in_app_iff. simpl. split.
      * intros [[H|[<-|[]]]|[-> [c [H1 [dc H2]]]]]; [now left| |].
        -- right. split; [trivial|]. exists d. split; [trivial|]. exists dic; auto.
        -- right. split; [trivial|]. exists c. split; [trivial|]. exists dc; auto.
      * intros [H|[-> _]]; [tauto|]. left. right. auto.
    + split.
      * intros [H|[-> [c [H1 [dc H2]]]]]; [now left|]. right. split; [trivial|].
        exists c. split; [trivial|]. exists dc. simpl; auto.
      * intros [H|[-> [c [H1 [dc [H2|H2]]]]]]; [now left| |].
        -- injection H2 as -> ->. tauto.
        -- right. split; [trivial|]. exists c. split; [trivial|]. exists dc; trivial.
Qed.

(** ** All constraints *)

Definition numbered (cons : list depend) := combine (seq 0 (length cons)) cons.

Lemma numbered_in : forall cons, (forall dep, In dep cons <-> exists k, In (k, dep) (numbered cons)).
Proof.
  intros cons dep. unfold numbered. generalize 0 as a. induction cons as [|x cons IH]; intros a; simpl.
  - split; [tauto|]. intros [k []].
  - rewrite (IH (S a)). split.
    + intros [->|[k H]]; [exists a; auto|]. exists k. auto.
    + intros [k [H|H]]; [injection H as _ ->; auto|]. right. exists k. exact H.
Qed.

Lemma steps_gen : forall (P : tables -> Prop), (forall T kd, P T -> P (constraint_step T kd)) ->
  forall l T, P T -> P (fold_left constraint_step l T).
Proof. intros P H l. induction l; intros T HT; simpl; trivial. apply IHl. now apply H. Qed.

Lemma interp_q_i : forall cons u c n i,
  In i (q_i (interprete cons) (u, c, n)) <-> u = fst c /\ exists dep, In dep cons /\ uses dep c n i.
Proof.
  intros cons u c n i. unfold interprete. fold (numbered cons).
  assert (G : forall l T, In i (q_i (fold_left constraint_step l T) (u, c, n)) <->
     In i (q_i T (u, c, n)) \/ (u = fst c /\ exists k dep, In (k, dep) l /\ uses dep c n i)).
  { induction l as [|[k dep] l IH]; intros T; simpl.
    - split; [tauto|]. intros [H|[_ [k [dep [[] _]]]]]. exact H.
    - rewrite IH, con_q_i. split.
      + intros [[H|[H1 H2]]|[H [j [d [H1 H2]]]]]; [now left| |].
        * right. split; [trivial|]. exists k, dep. auto.
        * right. split; [trivial|]. exists j, d. auto.
      + intros [H|[H [j [d [[H1|H1] H2]]]]]; [tauto| |].
        * injection H1 as -> ->. tauto.
        * right. split; [trivial|]. exists j, d. auto. }
  rewrite G. simpl. split.
  - intros [[]|[H [k [dep [H1 H2]]]]]. split; [trivial|]. exists dep. split; [|trivial].
    apply numbered_in. exists k; trivial.
  - intros [H [dep [H1 H2]]]. right. split; [trivial|]. apply numbered_in in H1 as [k H1]. exists k, dep. auto.
Qed.

Lemma interp_q_ij : forall cons u v c n i,
  In i (q_ij (interprete cons) (u, v, c, n)) <->
  v = fst c /\ exists dep d, In dep cons /\ uses dep c n i /\ d <> c /\ u = fst d /\ takes_part dep d.
Proof.
  intros cons u v c n i. unfold interprete. fold (numbered cons).
  assert (G : forall l T, In i (q_ij (fold_left constraint_step l T) (u, v, c, n)) <->
     In i (q_ij T (u, v, c, n)) \/
     (v = fst c /\ exists k dep d, In (k, dep) l /\ uses dep c n i /\ d <> c /\ u = fst d /\ takes_part dep d)).
  { induction l as [|[k dep] l IH]; intros T; simpl.
    - split; [tauto|]. intros [H|[_ [k [dep [d [[] _]]]]]]. exact H.
    - rewrite IH, con_q_ij. split.
      + intros [[H|[H1 [H2 [d H3]]]]|[H [j [e [d [H1 H2]]]]]]; [now left| |].
        * right. split; [trivial|]. exists k, dep, d. auto.
        * right. split; [trivial|]. exists j, e, d. auto.
      + intros [H|[H [j [e [d [[H1|H1] H2]]]]]]; [tauto| |].
        * injection H1 as -> ->. left. right. split; [trivial|]. split; [apply H2|]. exists d. apply H2.
        * right. split; [trivial|]. exists j, e, d. auto. }
  rewrite G. simpl. split.
  - intros [[]|[H [k [dep [d [H1 H2]]]]]]. split; [trivial|]. exists dep, d. split; [|trivial].
    apply numbered_in. exists k; trivial.
  - intros [H [dep [d [H1 H2]]]]. right. split; [trivial|].
    apply numbered_in in H1 as [k H1]. exists k, dep, d. auto.
Qed.

Lemma interp_nghb : forall cons u v,
  In v (nghb (interprete cons) u) <->
  exists dep c d, In dep cons /\ c <> d /\ u = fst c /\ v = fst d /\ takes_part dep c /\ takes_part dep d.
Proof.
  intros cons u v. unfold interprete. fold (numbered cons).
  assert (G : forall l T, In v (nghb (fold_left constraint_step l T) u) <->
     In v (nghb T u) \/
     (exists k dep c d, In (k, dep) l /\ c <> d /\ u = fst c /\ v = fst d /\ takes_part dep c /\ takes_part dep d)).
  { induction l as [|[k dep] l IH]; intros T; simpl.
    - split; [tauto|]. intros [H|[k [dep [c [d [[] _]]]]]]. exact H.
    - rewrite IH, con_nghb. split.
      + intros [[H|[c [d H]]]|[j [e [c [d [H1 H2]]]]]]; [now left| |].
        * right. exists k, dep, c, d. auto.
        * right. exists j, e, c, d. auto.
      + intros [H|[j [e [c [d [[H1|H1] H2]]]]]]; [tauto| |].
        * injection H1 as -> ->. left. right. exists c, d. auto.
        * right. exists j, e, c, d. auto. }
  rewrite G. simpl. split.
  - intros [[]|[k [dep [c [d [H1 H2]]]]]]. exists dep, c, d. split; [|trivial].
    apply numbered_in. exists k; trivial.
  - intros [dep [c [d [H1 H2]]]]. right. apply numbered_in in H1 as [k H1]. exists k, dep, c, d. auto.
Qed.

Lemma interp_q_i_inc : forall cons k, increasing (q_i (interprete cons) k).
Proof.
  intros cons. unfold interprete.
  apply (steps_gen (fun T => forall k, increasing (q_i T k))).
  - intros T [j dep] H. unfold constraint_step. cbn [fst snd].
    rewrite (proj1 (child_steps j dep dep T)). revert H. generalize (q_i T) as X.
    generalize dep as l. induction l as [|p l IH]; intros X H; cbn [fold_left]; [trivial|].
    apply IH. intros k. now apply own_inc.
  - intros k i j d _ H. simpl in H. lia.
Qed.

Lemma interp_q_ij_inc : forall cons k, increasing (q_ij (interprete cons) k).
Proof.
  intros cons. unfold interprete.
  apply (steps_gen (fun T => forall k, increasing (q_ij T k))).
  - intros T [j dep] H. unfold constraint_step. cbn [fst snd].
    rewrite (proj1 (proj2 (child_steps j dep dep T))). revert H. generalize (q_ij T) as X.
    generalize dep at 2 as l. induction l as [|p l IH]; intros X H; cbn [fold_left]; [trivial|].
    apply IH. intros k. now apply others_inc.
  - intros k i j d _ H. simpl in H. lia.
Qed.

Lemma interp_nghb_nodup : forall cons u, NoDup (nghb (interprete cons) u).
Proof.
  intros cons. unfold interprete.
  apply (steps_gen (fun T => forall u, NoDup (nghb T u))).
  - intros T [j dep] H. unfold constraint_step. cbn [fst snd].
    rewrite (proj1 (proj2 (proj2 (child_steps j dep dep T)))). revert H. generalize (nghb T) as X.
    generalize dep at 2 as l. induction l as [|p l IH]; intros X H; cbn [fold_left]; [trivial|].
    apply IH. intros k. now apply nghbs_nodup.
  - intros u. constructor.
Qed.

Lemma interp_nghb_sym : forall cons u v,
  In v (nghb (interprete cons) u) <-> In u (nghb (interprete cons) v).
Proof.
  intros. rewrite !interp_nghb. split; intros [dep [c [d [H1 [H2 [H3 [H4 [H5 H6]]]]]]]];
    exists dep, d, c; repeat (split; [congruence||trivial|]); trivial.
Qed.

Lemma interp_no_self : forall cons u, one_child_each cons -> ~ In u (nghb (interprete cons) u).
Proof.
  intros cons u H K. apply interp_nghb in K as [dep [c [d [H1 [H2 [H3 [H4 [H5 H6]]]]]]]].
  apply H2. apply (H dep c d); trivial. congruence.
Qed.

Lemma interp_gcon : forall cons u j,
  In j (gcon (interprete cons) u) <->
  exists dep c, nth_error cons j = Some dep /\ u = fst c /\ takes_part dep c.
Proof.
  intros cons u j. unfold interprete. fold (numbered cons).
  assert (G : forall l T, In j (gcon (fold_left constraint_step l T) u) <->
     In j (gcon T u) \/ (exists dep c, In (j, dep) l /\ u = fst c /\ takes_part dep c)).
  { induction l as [|[k dep] l IH]; intros T; simpl.
    - split; [tauto|]. intros [H|[dep [c [[] _]]]]. exact H.
    - rewrite IH, con_gcon. split.
      + intros [[H|[-> [c H]]]|[e [c [H1 H2]]]]; [now left| |].
        * right. exists dep, c. auto.
        * right. exists e, c. auto.
      + intros [H|[e [c [[H1|H1] H2]]]]; [tauto| |].
        * injection H1 as -> ->. left. right. split; [trivial|]. exists c; trivial.
        * right. exists e, c. auto. }
  assert (B : forall dep, In (j, dep) (numbered cons) <-> nth_error cons j = Some dep).
  { intros dep. unfold numbered.
    assert (B' : forall cs a j, In (j, dep) (combine (seq a (length cs)) cs) <-> a <= j /\ nth_error cs (j - a) = Some dep).
    { induction cs as [|x cs IH]; intros a m; simpl.
      - split; [tauto|]. intros [_ H]. destruct (m - a); discriminate.
      - rewrite IH. split.
        + intros [H|[H1 H2]].
          * injection H as -> ->. rewrite Nat.sub_diag. auto.
          * split; [lia|]. destruct (m - a) as [|r] eqn:Er; [lia|]. simpl.
            now replace (m - S a) with r in H2 by lia.
        + intros [H1 H2]. destruct (m - a) as [|r] eqn:Er; simpl in H2.
          * injection H2 as ->. left. f_equal. lia.
          * right. split; [lia|]. now replace (m - S a) with r by lia. }
    rewrite B'. rewrite Nat.sub_0_r. intuition lia. }
  rewrite G. simpl. split.
  - intros [[]|[dep [c [H1 H2]]]]. exists dep, c. split; [now apply B|trivial].
  - intros [dep [c [H1 H2]]]. right. exists dep, c. split; [now apply B|trivial].
Qed.

(** What an updater sees of a neighbour is part of what the neighbour has. *)
Lemma interp_part : forall cons u v c n i,
  In i (q_ij (interprete cons) (u, v, c, n)) -> In i (q_i (interprete cons) (v, c, n)).
Proof.
  intros cons u v c n i H. apply interp_q_ij in H as [H [dep [d [H1 [H2 _]]]]].
  apply interp_q_i. split; [trivial|]. exists dep. auto.
Qed.

Lemma interp_key : forall cons u v c n i,
  In i (q_ij (interprete cons) (u, v, c, n)) -> In v (nghb (interprete cons) u).
Proof.
  intros cons u v c n i H. apply interp_q_ij in H as [H [dep [d [H1 [H2 [H3 [H4 H5]]]]]]].
  apply interp_nghb. exists dep, d, c. repeat (split; [trivial|]).
  destruct H2 as [dic [is [H2 _]]]. exists dic; trivial.
Qed.

Lemma q_ji_keys_in : forall N cons u v, (forall u v, In v (nghb (interprete cons) u) -> u < N) ->
  (In v (q_ji_keys N (interprete cons) u) <-> In v (nghb (interprete cons) u)).
Proof.
  intros N cons u v H. unfold q_ji_keys. rewrite filter_In, in_seq, existsb_exists. split.
  - intros [_ [w [H1 H2]]]. apply Nat.eqb_eq in H2. subst w. now apply interp_nghb_sym.
  - intros K. apply interp_nghb_sym in K. split.
    + specialize (H v u K). lia.
    + exists u. split; [trivial|apply Nat.eqb_refl].
Qed.

(** Two strictly increasing lists with the same members are the same. *)
Lemma increasing_ext : forall l m, increasing l -> increasing m ->
  (forall i, In i l <-> In i m) -> l = m.
Proof.
  induction l as [|x l IH]; intros m Hl Hm H.
  - destruct m as [|y m]; trivial. exfalso. apply (proj2 (H y)). simpl; auto.
  - destruct m as [|y m]; [exfalso; apply (proj1 (H x)); simpl; auto|].
    assert (Lx : forall z, In z l -> x < z).
    { intros z Hz. destruct (In_nth _ _ 0 Hz) as [k [Hk <-]].
      specialize (Hl 0 (S k) 0). simpl in Hl. apply Hl; lia. }
    assert (Ly : forall z, In z m -> y < z).
    { intros z Hz. destruct (In_nth _ _ 0 Hz) as [k [Hk <-]].
      specialize (Hm 0 (S k) 0). simpl in Hm. apply Hm; lia. }
    assert (E : x = y).
    { destruct (proj1 (H x)) as [E|E]; [simpl; auto|now symmetry|].
      destruct (proj2 (H y)) as [F|F]; [simpl; auto|trivial|].
      specialize (Lx _ F). specialize (Ly _ E). lia. }
    subst y. f_equal. apply IH.
    + intros i j d Hij Hj. apply (Hl (S i) (S j) d); simpl; lia.
    + intros i j d Hij Hj. apply (Hm (S i) (S j) d); simpl; lia.
    + intros i. split; intros Hi.
      * destruct (proj1 (H i)) as [E|E]; [simpl; auto| |trivial]. subst. specialize (Lx _ Hi). lia.
      * destruct (proj2 (H i)) as [E|E]; [simpl; auto| |trivial]. subst. specialize (Ly _ Hi). lia.
Qed.

(** When every index of a child's variable that any constraint uses is also
    used together with something of updater [u], the copy that [u] holds has
    exactly the neighbour's layout. *)
Lemma interp_same_layout : forall cons u v c n, v = fst c ->
  (forall dep i, In dep cons -> uses dep c n i ->
     exists dep' d, In dep' cons /\ uses dep' c n i /\ d <> c /\ u = fst d /\ takes_part dep' d) ->
  q_ij (interprete cons) (u, v, c, n) = q_i (interprete cons) (v, c, n).
Proof.
  intros cons u v c n E H. apply increasing_ext.
  - apply interp_q_ij_inc.
  - apply interp_q_i_inc.
  - intros i. split; [apply interp_part|]. intros K. apply interp_q_i in K as [_ [dep [K1 K2]]].
    apply interp_q_ij. split; [trivial|]. apply (H dep i K1 K2).
Qed.

(** ** Ordering of the neighbours *)

Lemma insert_by_perm : forall f x l, Permutation (insert_by f x l) (x :: l).
Proof.
  intros f x l. induction l as [|y l IH]; simpl; [reflexivity|].
  destruct (f x <=? f y); [reflexivity|]. rewrite IH. apply perm_swap.
Qed.

Lemma sort_by_perm : forall f l, Permutation (sort_by f l) l.
Proof. intros f l. induction l; simpl; [reflexivity|]. rewrite insert_by_perm. now constructor. Qed.

Lemma insert_by_sorted : forall f x l, StronglySorted (fun a b => f a <= f b) l ->
  StronglySorted (fun a b => f a <= f b) (insert_by f x l).
Proof.
  intros f x l H. induction H as [|y l H IH F]; simpl.
  - constructor; constructor.
  - destruct (Nat.leb_spec (f x) (f y)).
    + constructor; [now constructor|]. constructor; [lia|].
      eapply Forall_impl; [|exact F]. intros z Hz. simpl in Hz. lia.
    + constructor; [trivial|]. apply Forall_forall. intros z Hz.
      apply (Permutation_in _ (insert_by_perm f x l)) in Hz as [<-|Hz]; [lia|].
      rewrite Forall_forall in F. now apply F.
Qed.

Lemma sort_by_sorted : forall f l, StronglySorted (fun a b => f a <= f b) (sort_by f l).
Proof. intros f l. induction l; simpl; [constructor|]. now apply insert_by_sorted. Qed.

Lemma ring_key_order : forall N ref i, ref < N -> i < N -> i <> ref ->
  ring_key N ref i - ref = (i + N - ref) mod N.
Proof.
  intros N ref i H Hi E. unfold ring_key. destruct (Nat.ltb_spec ref i).
  - replace (i + N - ref) with ((i - ref) + 1 * N) by lia. rewrite Nat.mod_add by lia.
    symmetry. apply Nat.mod_small. lia.
  - symmetry. apply Nat.mod_small. lia.
Qed.

(** ** Counters *)

Open Scope Z_scope.

Lemma solve_loop_count : forall fuel m it0 c,
  0 <= iteration c - it0 -> Z.of_nat fuel = Z.max 0 (m - (iteration c - it0)) ->
  solve_loop fuel m it0 c =
    Some (mkCounters (iteration c + Z.of_nat fuel) (n_objectives c + Z.of_nat fuel)
                     (n_stacked c + Z.of_nat fuel) (n_residuals c + Z.of_nat fuel) (n_times c + Z.of_nat fuel)).
Proof.
  induction fuel as [|fuel IH]; intros m it0 c H0 H.
  - simpl. destruct (Z.ltb_spec (iteration c - it0) m); [lia|].
    destruct c; simpl. now rewrite !Z.add_0_r.
  - cbn [solve_loop]. destruct (Z.ltb_spec (iteration c - it0) m); [|lia].
    rewrite IH; cbn [iteration dual_update n_objectives n_stacked n_residuals n_times]; [|lia|lia].
    f_equal. f_equal; lia.
Qed.

Lemma solve_loop_more : forall fuel m it0 c c', solve_loop fuel m it0 c = Some c' ->
  solve_loop (S fuel) m it0 c = Some c'.
Proof.
  induction fuel as [|fuel IH]; intros m it0 c c' H.
  - cbn [solve_loop] in H |- *. destruct (iteration c - it0 <? m); [discriminate|exact H].
  - cbn [solve_loop] in H. remember (S fuel) as f. cbn [solve_loop].
    destruct (iteration c - it0 <? m); [|exact H]. subst f. now apply IH.
Qed.

Lemma solve_count : forall fuel m c c', solve fuel m c = Some c' ->
  let k := Z.max 0 m in
  c' = mkCounters (iteration c + k) (n_objectives c + k) (n_stacked c + k) (n_residuals c + k) (n_times c + k).
Proof.
  intros fuel m c c' H k. unfold solve in H.
  assert (G : forall f c0, solve_loop f m (iteration c) c = Some c0 ->
     forall e, solve_loop (e + f)%nat m (iteration c) c = Some c0).
  { intros f c0 Hf e. induction e as [|e IHe]; [exact Hf|]. now apply solve_loop_more. }
  pose proof (solve_loop_count (Z.to_nat k) m (iteration c) c) as K.
  rewrite Z2Nat.id in K by lia. specialize (K ltac:(lia) ltac:(lia)).
  pose proof (G _ _ H (Z.to_nat k)) as G1. pose proof (G _ _ K fuel) as G2.
  replace (fuel + Z.to_nat k)%nat with (Z.to_nat k + fuel)%nat in G2 by lia. congruence.
Qed.

Lemma solve_terminates : forall m c, exists fuel c', solve fuel m c = Some c'.
Proof.
  intros m c. exists (Z.to_nat (Z.max 0 m)). eexists. apply solve_loop_count; [lia|].
  rewrite Z2Nat.id; lia.
Qed.

Lemma solves_count : forall n fuel m c c', solves n fuel m c = Some c' ->
  let k := Z.of_nat n * Z.max 0 m in
  c' = mkCounters (iteration c + k) (n_objectives c + k) (n_stacked c + k) (n_residuals c + k) (n_times c + k).
Proof.
  induction n as [|n IH]; intros fuel m c c' H.
  - simpl in H. injection H as <-. destruct c; simpl. now rewrite !Z.add_0_r.
  - cbn [solves] in H. destruct (solve fuel m c) as [c1|] eqn:E; [|discriminate].
    apply solve_count in E. apply IH in H. subst c1. cbv zeta in H. rewrite H.
    cbn [iteration n_objectives n_stacked n_residuals n_times]. f_equal; lia.
Qed.

Lemma initialize_count : forall i n fuel m c c1 c2,
  initialize i fuel m c = Some c1 -> solves n fuel m c1 = Some c2 ->
  n_objectives c2 = Z.of_nat (i + n) * Z.max 0 m /\
  n_stacked c2 = n_objectives c2 + 1 /\
  iteration c2 = iteration c + n_objectives c2 /\
  n_residuals c2 = n_residuals c + n_objectives c2 /\ n_times c2 = n_times c + n_objectives c2.
Proof.
  intros i n fuel m c c1 c2 H K. unfold initialize in H. apply solves_count in H. apply solves_count in K.
  subst c1. cbv zeta in K. rewrite K. cbn [iteration n_objectives n_stacked n_residuals n_times].
  repeat split; lia.
Qed.

Lemma stop_max_iter : forall m it subs, m <> 0 -> (stop_criterium (Some m) it subs = true <-> m < it).
Proof.
  intros m it subs H. unfold stop_criterium. destruct (Z.eqb_spec m 0); [contradiction|]. apply Z.ltb_lt.
Qed.

Lemma stop_all : forall it subs, stop_criterium None it subs = true <-> Forall (fun b => b = true) subs.
Proof.
  intros it subs. simpl. rewrite forallb_forall, Forall_forall. tauto.
Qed.

Lemma plot_ok : forall n_res i m t,
  plot_marks i m t = plot_values n_res i m t <-> i + t * m < n_res.
Proof. intros. unfold plot_marks, plot_values. lia. Qed.
