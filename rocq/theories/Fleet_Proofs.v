(** Proofs about neighbours, couples and formation constraints. *)

From Coq Require Import String List Arith ZArith Reals Bool Lia Lra FinFun.
From Verif Require Import Fleet_Model Fleet_Spec.
Import ListNotations.
Open Scope string_scope.
Open Scope list_scope.
Open Scope nat_scope.

(** ** Neighbours *)

Lemma succ_mod : forall N l, l < N -> (N + l + 1) mod N = if l + 1 =? N then 0 else l + 1.
Proof.
  intros N l H. destruct (Nat.eqb_spec (l + 1) N) as [E|E].
  - replace (N + l + 1) with (0 + 2 * N) by lia. rewrite Nat.mod_add by lia. apply Nat.mod_0_l; lia.
  - replace (N + l + 1) with ((l + 1) + 1 * N) by lia. rewrite Nat.mod_add by lia.
    apply Nat.mod_small; lia.
Qed.

Lemma pred_mod : forall N l, l < N -> (N + l - 1) mod N = if l =? 0 then N - 1 else l - 1.
Proof.
  intros N l H. destruct (Nat.eqb_spec l 0) as [E|E].
  - subst. rewrite Nat.add_0_r. apply Nat.mod_small; lia.
  - replace (N + l - 1) with ((l - 1) + 1 * N) by lia. rewrite Nat.mod_add by lia.
    apply Nat.mod_small; lia.
Qed.

Lemma circ_eq : forall N l, l < N ->
  circ N l = [ if l + 1 =? N then 0 else l + 1; if l =? 0 then N - 1 else l - 1 ].
Proof. intros. unfold circ. now rewrite succ_mod, pred_mod by lia. Qed.

Lemma circ_in : forall N l k, l < N ->
  (In k (circ N l) <-> (k = if l + 1 =? N then 0 else l + 1) \/
                       (k = if l =? 0 then N - 1 else l - 1)).
Proof. intros N l k H. rewrite circ_eq by lia. simpl. intuition. Qed.

Ltac circ_cases :=
  repeat match goal with
  | |- context [ ?a =? ?b ] => destruct (Nat.eqb_spec a b)
  | H : context [ ?a =? ?b ] |- _ => destruct (Nat.eqb_spec a b)
  end.

Lemma circ_range : forall N l k, l < N -> In k (circ N l) -> k < N.
Proof. intros N l k H. rewrite circ_in by lia. circ_cases; lia. Qed.

Lemma circ_two : forall N l, 3 <= N -> l < N ->
  exists a b, circ N l = [a; b] /\ a <> b /\ a <> l /\ b <> l /\ a < N /\ b < N.
Proof.
  intros N l H Hl. rewrite circ_eq by lia. eexists; eexists; split; [reflexivity|].
  circ_cases; lia.
Qed.

Lemma circ_sym : forall N k l, k < N -> l < N -> In k (circ N l) -> In l (circ N k).
Proof. intros N k l Hk Hl. rewrite !circ_in by lia. circ_cases; lia. Qed.

Lemma full_in : forall N l k, In k (full N l) <-> k < N /\ k <> l.
Proof.
  intros. unfold full. rewrite filter_In, in_seq, negb_true_iff, Nat.eqb_neq. lia.
Qed.

Lemma full_nodup : forall N l, NoDup (full N l).
Proof. intros. apply NoDup_filter, seq_NoDup. Qed.

(** ** Relative configurations *)

Lemma rel_config_antisym : forall a b r, rel_config a b = Some r ->
  rel_config b a = Some (map Ropp r).
Proof.
  intros a b r. unfold rel_config. rewrite (Nat.eqb_sym (length b)).
  destruct (length a =? length b) eqn:E; [|discriminate].
  intros H; injection H as <-. f_equal.
  clear E. revert b. induction a as [|x a IH]; intros [|y b]; simpl; trivial.
  rewrite IH. f_equal. lra.
Qed.

Lemma rel_config_nth : forall a b r k, rel_config a b = Some r -> k < length a ->
  nth k r 0%R = (nth k a 0 - nth k b 0)%R.
Proof.
  intros a b r k. unfold rel_config. destruct (Nat.eqb_spec (length a) (length b)) as [E|E]; [|discriminate].
  intros H; injection H as <-. intros Hk.
  set (f := fun p : R * R => (fst p - snd p)%R).
  replace 0%R with (f (0%R, 0%R)) at 1 by (unfold f; simpl; lra).
  rewrite map_nth, combine_nth by trivial. reflexivity.
Qed.

Lemma rel_config_length : forall a b r, rel_config a b = Some r -> length r = length a /\ length a = length b.
Proof.
  intros a b r. unfold rel_config. destruct (Nat.eqb_spec (length a) (length b)) as [E|E]; [|discriminate].
  intros H; injection H as <-. rewrite map_length, combine_length. lia.
Qed.

(** ** Couples, for any neighbour function *)

Lemma mem_in : forall x l, mem x l = true <-> In x l.
Proof.
  intros. unfold mem. rewrite existsb_exists. split.
  - intros [y [H E]]. apply Nat.eqb_eq in E. now subst.
  - intros H. exists x. split; [trivial|apply Nat.eqb_refl].
Qed.

Lemma mem_out : forall x l, mem x l = false <-> ~ In x l.
Proof. intros. rewrite <- mem_in. destruct (mem x l); split; congruence. Qed.

Definition cgrow (c d : cmap) := forall v n, In n (c v) -> In n (d v).

Lemma step_in : forall veh c x v n,
  In n (couple_step veh c x v) <->
  In n (c v) \/ (v = veh /\ n = x /\ ~ In veh (c x) /\ ~ In x (c veh)).
Proof.
  intros. unfold couple_step. destruct (mem veh (c x)) eqn:E1; simpl.
  { apply mem_in in E1. intuition. }
  destruct (mem x (c veh)) eqn:E2; simpl.
  { apply mem_in in E2. intuition. }
  apply mem_out in E1; apply mem_out in E2.
  destruct (Nat.eqb_spec v veh) as [->|E].
  - rewrite in_app_iff. simpl. intuition.
  - intuition.
Qed.

Lemma inner_in : forall veh l c v n,
  In n (fold_left (couple_step veh) l c v) -> In n (c v) \/ (v = veh /\ In n l).
Proof.
  intros veh l. induction l as [|x l IH]; intros c v n H; simpl in *; [tauto|].
  apply IH in H as [H|[H1 H2]]; [|tauto].
  apply step_in in H as [H|[H1 [H2 _]]]; [tauto|]. right; split; [trivial|left; now symmetry].
Qed.

Lemma inner_grow : forall veh l c, cgrow c (fold_left (couple_step veh) l c).
Proof.
  intros veh l. induction l as [|x l IH]; intros c v n H; simpl; trivial.
  apply IH, step_in. now left.
Qed.

Lemma inner_cover : forall veh l c n, In n l ->
  In n (fold_left (couple_step veh) l c veh) \/ In veh (fold_left (couple_step veh) l c n).
Proof.
  intros veh l. induction l as [|x l IH]; intros c n H; simpl in *; [tauto|].
  destruct H as [->|H]; [|now apply IH].
  destruct (in_dec Nat.eq_dec veh (c n)) as [A|A].
  { right. apply inner_grow, step_in. now left. }
  left. apply inner_grow. apply step_in.
  destruct (in_dec Nat.eq_dec n (c veh)) as [B|B]; [now left|right; auto].
Qed.

Definition cexcl (c : cmap) := forall v n, v <> n -> In n (c v) -> ~ In v (c n).
Definition cnodup (c : cmap) := forall v, NoDup (c v).

Lemma NoDup_snoc : forall (l : list nat) x, NoDup l -> ~ In x l -> NoDup (l ++ [x]).
Proof.
  induction l as [|y l IH]; intros x H N; simpl.
  - constructor; [simpl; tauto|constructor].
  - inversion H; subst. constructor.
    + rewrite in_app_iff. simpl in *. intuition.
    + apply IH; trivial. simpl in N. tauto.
Qed.

Lemma step_excl : forall veh c x, cexcl c -> cexcl (couple_step veh c x).
Proof.
  intros veh c x H v n E A B. apply step_in in A; apply step_in in B.
  destruct A as [A|[-> [-> [A1 A2]]]]; destruct B as [B|[B0 [B1 [B2 B3]]]].
  - exact (H v n E A B).
  - subst. tauto.
  - tauto.
  - congruence.
Qed.

Lemma step_nodup : forall veh c x, cnodup c -> cnodup (couple_step veh c x).
Proof.
  intros veh c x H v. unfold couple_step. destruct (mem veh (c x)); simpl; [apply H|].
  destruct (mem x (c veh)) eqn:E; simpl; [apply H|].
  destruct (v =? veh); [|apply H]. apply NoDup_snoc; [apply H|now apply mem_out].
Qed.

Lemma inner_excl : forall veh l c, cexcl c -> cexcl (fold_left (couple_step veh) l c).
Proof. intros veh l. induction l; intros; simpl; trivial. apply IHl. now apply step_excl. Qed.

Lemma inner_nodup : forall veh l c, cnodup c -> cnodup (fold_left (couple_step veh) l c).
Proof. intros veh l. induction l; intros; simpl; trivial. apply IHl. now apply step_nodup. Qed.

Section Couples.
  Context (nb : nat -> list nat).

  Let outer := fun c veh => fold_left (couple_step veh) (nb veh) c.

  Lemma outer_in : forall vs c v n, In n (fold_left outer vs c v) ->
    In n (c v) \/ (In v vs /\ In n (nb v)).
  Proof.
    induction vs as [|x vs IH]; intros c v n H; simpl in *; [tauto|].
    apply IH in H as [H|H]; [|tauto].
    apply inner_in in H as [H|[-> H]]; tauto.
  Qed.

  Lemma outer_grow : forall vs c, cgrow c (fold_left outer vs c).
  Proof.
    induction vs as [|x vs IH]; intros c v n H; simpl; trivial.
    apply IH. now apply inner_grow.
  Qed.

  Lemma outer_cover : forall vs c v n, In v vs -> In n (nb v) ->
    In n (fold_left outer vs c v) \/ In v (fold_left outer vs c n).
  Proof.
    induction vs as [|x vs IH]; intros c v n H Hn; simpl in *; [tauto|].
    destruct H as [->|H]; [|now apply IH].
    destruct (inner_cover v (nb v) c n Hn) as [A|A]; [left|right]; now apply outer_grow.
  Qed.

  Lemma outer_excl : forall vs c, cexcl c -> cexcl (fold_left outer vs c).
  Proof. induction vs; intros; simpl; trivial. apply IHvs. now apply inner_excl. Qed.

  Lemma outer_nodup : forall vs c, cnodup c -> cnodup (fold_left outer vs c).
  Proof. induction vs; intros; simpl; trivial. apply IHvs. now apply inner_nodup. Qed.

  Lemma couples_in : forall N v n, In n (couples_of nb N v) -> v < N /\ In n (nb v).
  Proof.
    intros N v n H. apply outer_in in H as [[]|[H1 H2]]. apply in_seq in H1. split; [lia|trivial].
  Qed.

  Lemma couples_cover : forall N v n, v < N -> In n (nb v) ->
    In n (couples_of nb N v) \/ In v (couples_of nb N n).
  Proof. intros. apply outer_cover; trivial. apply in_seq; lia. Qed.

  Lemma couples_excl : forall N, cexcl (couples_of nb N).
  Proof. intros. apply outer_excl. intros v n _ []. Qed.

  Lemma couples_nodup : forall N, cnodup (couples_of nb N).
  Proof. intros. apply outer_nodup. intros v. constructor. Qed.
End Couples.

Lemma pairs_in : forall N c v n, In (v, n) (pairs_of N c) <-> v < N /\ In n (c v).
Proof.
  intros. unfold pairs_of. rewrite in_flat_map. split.
  - intros [x [H1 H2]]. apply in_map_iff in H2 as [y [E H2]]. injection E as -> ->.
    apply in_seq in H1. split; [lia|trivial].
  - intros [H1 H2]. exists v. split; [apply in_seq; lia|]. now apply in_map.
Qed.

Lemma nodup_app : forall (A : Type) (l m : list A), NoDup l -> NoDup m ->
  (forall x, In x l -> ~ In x m) -> NoDup (l ++ m).
Proof.
  intros A l m Hl Hm H. induction l as [|x l IH]; simpl; trivial.
  inversion Hl; subst. constructor.
  - rewrite in_app_iff. intros [K|K]; [tauto|]. apply (H x); simpl; auto.
  - apply IH; trivial. intros y Hy. apply H. simpl; auto.
Qed.

Lemma pairs_nodup : forall N c, cnodup c -> NoDup (pairs_of N c).
Proof.
  intros N c H. unfold pairs_of.
  assert (G : forall l, NoDup l -> NoDup (flat_map (fun v => map (pair v) (c v)) l)).
  { induction l as [|x l IH]; intros Hl; simpl; [constructor|]. inversion Hl; subst.
    apply nodup_app.
    - apply FinFun.Injective_map_NoDup; [|apply H]. intros a b E. now injection E.
    - now apply IH.
    - intros [a b] Ha Hb. apply in_map_iff in Ha as [y [E _]]. injection E as -> ->.
      apply in_flat_map in Hb as [z [Hz Hb]]. apply in_map_iff in Hb as [w [E _]].
      injection E as -> ->. tauto. }
  apply G, seq_NoDup.
Qed.

Lemma couples_simple : forall nb N, (forall v, v < N -> ~ In v (nb v)) ->
  simple_pairs (pairs_of N (couples_of nb N)).
Proof.
  intros nb N H. split; [apply pairs_nodup, couples_nodup|].
  intros u v K. apply pairs_in in K as [K1 K2].
  pose proof (couples_in nb N u v K2) as [_ K3].
  assert (E : u <> v) by (intros ->; now apply (H v)).
  split; [trivial|]. intros L. apply pairs_in in L as [_ L].
  exact (couples_excl nb N u v E K2 L).
Qed.

(** ** Connectivity *)

Lemma linked_trans : forall E u v w, linked E u v -> linked E v w -> linked E u w.
Proof.
  intros E u v w H K. induction K.
  - trivial.
  - eapply linked_fwd; [apply IHK; trivial|trivial].
  - eapply linked_bwd; [apply IHK; trivial|trivial].
Qed.

Lemma linked_sym : forall E u v, linked E u v -> linked E v u.
Proof.
  intros E u v H. induction H.
  - constructor.
  - eapply linked_trans; [|exact IHlinked]. eapply linked_bwd; [constructor|trivial].
  - eapply linked_trans; [|exact IHlinked]. eapply linked_fwd; [constructor|trivial].
Qed.

Lemma spans_root : forall N E, (forall v, v < N -> linked E 0 v) -> spans N E.
Proof.
  intros N E H u v Hu Hv. eapply linked_trans; [apply linked_sym|]; now apply H.
Qed.

Lemma couples_linked : forall nb N v n, v < N -> n < N -> In n (nb v) ->
  linked (pairs_of N (couples_of nb N)) v n.
Proof.
  intros nb N v n Hv Hn H. destruct (couples_cover nb N v n Hv H) as [K|K].
  - eapply linked_fwd; [constructor|]. apply pairs_in. auto.
  - eapply linked_bwd; [constructor|]. apply pairs_in. auto.
Qed.

Lemma circ_spans : forall N, spans N (pairs_of N (couples_of (circ N) N)).
Proof.
  intros N. apply spans_root. induction v as [|v IH]; intros H; [constructor|].
  eapply linked_trans; [apply IH; lia|]. apply couples_linked; [lia|lia|].
  rewrite circ_in by lia. left. circ_cases; lia.
Qed.

Lemma full_spans : forall N, spans N (pairs_of N (couples_of (full N) N)).
Proof.
  intros N. apply spans_root. intros v H. destruct v as [|v]; [constructor|].
  apply couples_linked; [lia|lia|]. apply full_in. lia.
Qed.

(** ** Explicit couples of the circular fleet *)

Definition circ_expected (N k v : nat) : list nat :=
  if v <? k then
    if v =? 0 then [ 1; N - 1 ] else if v + 1 <? N then [ v + 1 ] else []
  else [].

Lemma fold_left_ext_map : forall (l : list nat) veh (c d : cmap),
  (forall v, c v = d v) -> forall v, fold_left (couple_step veh) l c v = fold_left (couple_step veh) l d v.
Proof.
  induction l as [|x l IH]; intros veh c d H v; simpl; trivial.
  apply IH. intros w. unfold couple_step. rewrite !H.
  destruct (negb (mem veh (d x)) && negb (mem x (d veh))); trivial.
  now rewrite H.
Qed.

Lemma circ_couples_k : forall N k, 3 <= N -> k <= N -> forall v,
  fold_left (fun c veh => fold_left (couple_step veh) (circ N veh) c) (seq 0 k) (fun _ => []) v =
  circ_expected N k v.
Proof.
  intros N k HN. induction k as [|k IH]; intros Hk v; [reflexivity|].
  rewrite seq_S, fold_left_app. cbn [fold_left plus].
  rewrite (fold_left_ext_map (circ N k) k _ (circ_expected N k)) by (apply IH; lia).
  rewrite circ_eq by lia. cbn [fold_left].
  set (a := if k + 1 =? N then 0 else k + 1). set (b := if k =? 0 then N - 1 else k - 1).
  assert (Ek : circ_expected N k k = []).
  { unfold circ_expected. now rewrite Nat.ltb_irrefl. }
  assert (Hv : forall w, w <> k -> circ_expected N k w = circ_expected N (S k) w).
  { intros w Hw. unfold circ_expected. destruct (Nat.ltb_spec w k); destruct (Nat.ltb_spec w (S k)); trivial; lia. }
  destruct (Nat.eq_dec k 0) as [->|K0].
  - (* first vehicle: both neighbours are added *)
    assert (Ea : a = 1) by (unfold a; circ_cases; lia).
    assert (Eb : b = N - 1) by (unfold b; circ_cases; lia).
    assert (E1 : couple_step 0 (circ_expected N 0) a = fun w => if w =? 0 then [1] else circ_expected N 0 w).
    { unfold couple_step. rewrite Ea. reflexivity. }
    rewrite E1. unfold couple_step. rewrite Eb.
    destruct (Nat.eqb_spec (N - 1) 0); [lia|].
    assert (E2 : mem (N - 1) (if 0 =? 0 then [1] else circ_expected N 0 0) = false).
    { simpl. destruct (Nat.eqb_spec (N - 1) 1); [lia|trivial]. }
    rewrite E2. cbn -[circ_expected].
    unfold circ_expected. destruct (Nat.eqb_spec v 0) as [->|]; simpl; [reflexivity|].
    destruct v; [lia|]. reflexivity.
  - assert (Eb : b = k - 1) by (unfold b; circ_cases; lia).
    assert (Ekm : In k (circ_expected N k (k - 1))).
    { unfold circ_expected. destruct (Nat.ltb_spec (k - 1) k); [|lia].
      destruct (Nat.eqb_spec (k - 1) 0); [simpl; left; lia|].
      destruct (Nat.ltb_spec (k - 1 + 1) N); [simpl; left; lia|lia]. }
    destruct (Nat.eq_dec (k + 1) N) as [KN|KN].
    + assert (Ea : a = 0) by (unfold a; circ_cases; lia).
      assert (E1 : couple_step k (circ_expected N k) a = circ_expected N k).
      { unfold couple_step. rewrite Ea.
        assert (M : mem k (circ_expected N k 0) = true).
        { apply mem_in. unfold circ_expected. destruct (Nat.ltb_spec 0 k); [|lia]. simpl. right; left; lia. }
        now rewrite M. }
      rewrite E1. unfold couple_step. rewrite Eb.
      assert (M : mem k (circ_expected N k (k - 1)) = true) by now apply mem_in.
      rewrite M. simpl.
      destruct (Nat.eq_dec v k) as [->|E]; [|now apply Hv].
      rewrite Ek. unfold circ_expected. destruct (Nat.ltb_spec k (S k)); [|lia].
      destruct (Nat.eqb_spec k 0); [lia|]. destruct (Nat.ltb_spec (k + 1) N); [lia|reflexivity].
    + assert (Ea : a = k + 1) by (unfold a; circ_cases; lia).
      assert (E1 : couple_step k (circ_expected N k) a =
                   fun w => if w =? k then [k + 1] else circ_expected N k w).
      { unfold couple_step. rewrite Ea.
        assert (M : circ_expected N k (k + 1) = []).
        { unfold circ_expected. destruct (Nat.ltb_spec (k + 1) k); [lia|trivial]. }
        rewrite M, Ek. reflexivity. }
      rewrite E1. unfold couple_step. rewrite Eb.
      destruct (Nat.eqb_spec (k - 1) k); [lia|].
      assert (M : mem k (circ_expected N k (k - 1)) = true) by now apply mem_in.
      rewrite M. simpl.
      destruct (Nat.eqb_spec v k) as [->|E]; [|now apply Hv].
      unfold circ_expected. destruct (Nat.ltb_spec k (S k)); [|lia].
      destruct (Nat.eqb_spec k 0); [lia|]. destruct (Nat.ltb_spec (k + 1) N); [reflexivity|lia].
Qed.

Lemma circ_couples : forall N v, 3 <= N -> v < N ->
  couples_of (circ N) N v =
    if v =? 0 then [ 1; N - 1 ] else if v + 1 <? N then [ v + 1 ] else [].
Proof.
  intros N v HN Hv. unfold couples_of. rewrite circ_couples_k by lia.
  unfold circ_expected. now destruct (Nat.ltb_spec v N); [|lia].
Qed.

Lemma pairs_length : forall N c,
  length (pairs_of N c) = fold_right Nat.add 0 (map (fun v => length (c v)) (seq 0 N)).
Proof.
  intros N c. unfold pairs_of. generalize (seq 0 N) as l. induction l as [|x l IH]; simpl; trivial.
  rewrite app_length, map_length, IH. reflexivity.
Qed.

Lemma sum_app : forall l m, fold_right Nat.add 0 (l ++ m) = fold_right Nat.add 0 l + fold_right Nat.add 0 m.
Proof. induction l; intros; simpl; trivial. rewrite IHl. lia. Qed.

Lemma sum_ones : forall (f : nat -> nat) l, (forall x, In x l -> f x = 1) ->
  fold_right Nat.add 0 (map f l) = length l.
Proof.
  induction l as [|x l IH]; intros H; simpl; trivial.
  rewrite H by (simpl; auto). rewrite IH; trivial. intros y Hy. apply H. simpl; auto.
Qed.

Lemma seq_split3 : forall N, 3 <= N -> seq 0 N = 0 :: seq 1 (N - 2) ++ [ N - 1 ].
Proof.
  intros N H. destruct N as [|[|N]]; [lia|lia|].
  replace (S (S N) - 2) with N by lia. replace (S (S N) - 1) with (1 + N) by lia.
  change (seq 0 (S (S N))) with (0 :: seq 1 (S N)). now rewrite seq_S.
Qed.

Lemma circ_pairs_count : forall N, 3 <= N -> length (pairs_of N (couples_of (circ N) N)) = N.
Proof.
  intros N H. rewrite pairs_length, seq_split3 by lia.
  rewrite map_cons, map_app. cbn [fold_right]. rewrite sum_app, sum_ones.
  2:{ intros x Hx. apply in_seq in Hx. rewrite circ_couples by lia.
      destruct (Nat.eqb_spec x 0); [lia|]. destruct (Nat.ltb_spec (x + 1) N); [reflexivity|lia]. }
  rewrite seq_length. cbn [map fold_right]. rewrite !circ_couples by lia.
  destruct (Nat.eqb_spec (N - 1) 0); [lia|]. destruct (Nat.ltb_spec (N - 1 + 1) N); [lia|].
  simpl. lia.
Qed.

(** ** Central formation *)

Lemma central_circ : forall N, 3 <= N -> exists c,
  central_couples "circular" (circ N) N = Some c /\
  (forall v, v < N -> c v = if v =? 0 then [ 1; N - 1 ] else if v + 2 <? N then [ v + 1 ] else []).
Proof.
  intros N H. destruct N as [|[|n]]; [lia|lia|].
  exists (fun v => if (v =? S n) || (v =? n) then [] else couples_of (circ (S (S n))) (S (S n)) v).
  split; [reflexivity|].
  intros v Hv. rewrite circ_couples by lia.
  destruct (Nat.eqb_spec v (S n)); destruct (Nat.eqb_spec v n); simpl orb; cbv iota;
  destruct (Nat.eqb_spec v 0); destruct (Nat.ltb_spec (v + 2) (S (S n)));
  destruct (Nat.ltb_spec (v + 1) (S (S n))); trivial; lia.
Qed.

Lemma central_spans : forall N c, 3 <= N -> central_couples "circular" (circ N) N = Some c ->
  spans N (pairs_of N c).
Proof.
  intros N c H Hc. destruct (central_circ N H) as [d [Hd K]]. rewrite Hd in Hc. injection Hc as ->.
  apply spans_root.
  assert (L : forall v, v + 1 < N -> linked (pairs_of N c) 0 v).
  { induction v as [|v IH]; intros Hv; [constructor|].
    eapply linked_fwd; [apply IH; lia|]. apply pairs_in. split; [lia|].
    rewrite K by lia. destruct (Nat.eqb_spec v 0); [subst; simpl; auto|].
    destruct (Nat.ltb_spec (v + 2) N); [simpl; left; lia|lia]. }
  intros v Hv. destruct (Nat.eq_dec (v + 1) N) as [E|E]; [|apply L; lia].
  eapply linked_fwd; [constructor|]. apply pairs_in. split; [lia|].
  rewrite K by lia. simpl. right; left; lia.
Qed.

Lemma central_count : forall N c, 3 <= N -> central_couples "circular" (circ N) N = Some c ->
  length (pairs_of N c) = N - 1.
Proof.
  intros N c H Hc. destruct (central_circ N H) as [d [Hd K]]. rewrite Hd in Hc. injection Hc as ->.
  rewrite pairs_length, seq_split3 by lia.
  rewrite map_cons, map_app. cbn [fold_right]. rewrite sum_app.
  assert (E : seq 1 (N - 2) = seq 1 (N - 3) ++ [N - 2]).
  { replace (N - 2) with (S (N - 3)) at 1 by lia. rewrite seq_S.
    f_equal. f_equal. lia. }
  rewrite E, map_app, sum_app, sum_ones.
  2:{ intros x Hx. apply in_seq in Hx. rewrite K by lia.
      destruct (Nat.eqb_spec x 0); [lia|]. destruct (Nat.ltb_spec (x + 2) N); [reflexivity|lia]. }
  rewrite seq_length. cbn [map fold_right]. rewrite !K by lia.
  destruct (Nat.eqb_spec (N - 1) 0); [lia|]. destruct (Nat.eqb_spec (N - 2) 0); [lia|].
  destruct (Nat.ltb_spec (N - 1 + 2) N); [lia|]. destruct (Nat.ltb_spec (N - 2 + 2) N); [lia|].
  simpl. lia.
Qed.

Lemma central_two : exists c, central_couples "circular" (circ 2) 2 = Some c /\ pairs_of 2 c = [].
Proof. eexists. split; reflexivity. Qed.

Lemma central_one : central_couples "circular" (circ 1) 1 = None.
Proof. reflexivity. Qed.

Lemma central_full : forall N c, central_couples "full" (full N) N = Some c ->
  spans N (pairs_of N c).
Proof. intros N c H. injection H as <-. apply full_spans. Qed.

(** ** Explicit couples of the full interconnection *)

Lemma full_split : forall N k, k < N -> full N k = seq 0 k ++ seq (k + 1) (N - 1 - k).
Proof.
  intros N k H. unfold full.
  replace N with (k + S (N - 1 - k)) at 1 by lia.
  rewrite seq_app, filter_app. f_equal.
  - assert (G : forall a n, a + n <= k -> filter (fun j => negb (j =? k)) (seq a n) = seq a n).
    { intros a n. revert a. induction n as [|n IH]; intros a Hn; simpl; trivial.
      destruct (Nat.eqb_spec a k); [lia|]. simpl. rewrite IH by lia. reflexivity. }
    apply G; lia.
  - cbn [seq filter plus]. rewrite Nat.eqb_refl. cbn [negb].
    assert (G : forall a n, k < a -> filter (fun j => negb (j =? k)) (seq a n) = seq a n).
    { intros a n. revert a. induction n as [|n IH]; intros a Hn; simpl; trivial.
      destruct (Nat.eqb_spec a k); [lia|]. simpl. rewrite IH by lia. reflexivity. }
    replace (k + 1) with (S k) by lia. apply G; lia.
Qed.

Lemma inner_skip : forall veh l c, (forall n, In n l -> In veh (c n)) ->
  fold_left (couple_step veh) l c = c.
Proof.
  intros veh l c. induction l as [|x l IH]; intros H; simpl; trivial.
  assert (E : couple_step veh c x = c).
  { unfold couple_step. assert (M : mem veh (c x) = true) by (apply mem_in, H; simpl; auto).
    now rewrite M. }
  rewrite E. apply IH. intros n Hn. apply H. simpl; auto.
Qed.

Lemma inner_add : forall veh l (c : cmap),
  NoDup l -> (forall n, In n l -> n <> veh) ->
  (forall n, In n l -> ~ In veh (c n)) -> (forall n, In n l -> ~ In n (c veh)) ->
  forall v, fold_left (couple_step veh) l c v = if v =? veh then c veh ++ l else c v.
Proof.
  intros veh l. induction l as [|x l IH]; intros c Hn Hv H1 H2 v.
  - simpl. destruct (Nat.eqb_spec v veh); subst; now rewrite ?app_nil_r.
  - inversion Hn; subst. cbn [fold_left].
    assert (E : couple_step veh c x = fun w => if w =? veh then c veh ++ [x] else c w).
    { unfold couple_step.
      assert (M1 : mem veh (c x) = false) by (apply mem_out, H1; simpl; auto).
      assert (M2 : mem x (c veh) = false) by (apply mem_out, H2; simpl; auto).
      now rewrite M1, M2. }
    rewrite E. rewrite IH; trivial.
    + rewrite Nat.eqb_refl. destruct (Nat.eqb_spec v veh); [|reflexivity]. now rewrite <- app_assoc.
    + intros n Hl. apply Hv. simpl; auto.
    + intros n Hl. destruct (Nat.eqb_spec n veh) as [->|]; [exfalso; apply (Hv veh); simpl; auto|].
      apply H1. simpl; auto.
    + intros n Hl. rewrite Nat.eqb_refl, in_app_iff. intros [K|K].
      * apply (H2 n); simpl; auto.
      * simpl in K. destruct K as [->|[]]. tauto.
Qed.

Lemma full_couples_k : forall N k, k <= N -> forall v,
  fold_left (fun c veh => fold_left (couple_step veh) (full N veh) c) (seq 0 k) (fun _ => []) v =
  if v <? k then seq (v + 1) (N - 1 - v) else [].
Proof.
  intros N k. induction k as [|k IH]; intros Hk v; [now destruct v|].
  rewrite seq_S, fold_left_app. cbn [fold_left plus].
  rewrite (fold_left_ext_map (full N k) k _ (fun v => if v <? k then seq (v + 1) (N - 1 - v) else []))
    by (apply IH; lia).
  rewrite full_split by lia. rewrite fold_left_app, (inner_skip k (seq 0 k)).
  2:{ intros n Hn. apply in_seq in Hn. destruct (Nat.ltb_spec n k); [|lia]. apply in_seq. lia. }
  rewrite inner_add.
  - rewrite Nat.ltb_irrefl. simpl.
    destruct (Nat.eqb_spec v k) as [->|E]; simpl.
    + destruct (Nat.ltb_spec k (S k)); [reflexivity|lia].
    + destruct (Nat.ltb_spec v k); destruct (Nat.ltb_spec v (S k)); trivial; lia.
  - apply seq_NoDup.
  - intros n Hn. apply in_seq in Hn. lia.
  - intros n Hn. apply in_seq in Hn. destruct (Nat.ltb_spec n k); [lia|]. simpl; tauto.
  - intros n Hn. rewrite Nat.ltb_irrefl. simpl; tauto.
Qed.

Lemma full_couples : forall N v, v < N -> couples_of (full N) N v = seq (v + 1) (N - 1 - v).
Proof.
  intros N v H. unfold couples_of. rewrite full_couples_k by lia.
  destruct (Nat.ltb_spec v N); [trivial|lia].
Qed.

Lemma full_pairs_count : forall N, 2 * length (pairs_of N (couples_of (full N) N)) = N * (N - 1).
Proof.
  intros N. rewrite pairs_length.
  rewrite (map_ext_in _ (fun v => N - 1 - v)).
  2:{ intros v Hv. apply in_seq in Hv. rewrite full_couples by lia. apply seq_length. }
  assert (G : forall k, k <= N ->
    2 * fold_right Nat.add 0 (map (fun v => N - 1 - v) (seq 0 k)) + (N - k) * (N - 1 - k) = N * (N - 1)).
  { induction k as [|k IH]; intros Hk.
    - simpl. rewrite !Nat.sub_0_r. reflexivity.
    - rewrite seq_S, map_app, sum_app. cbn [map fold_right plus].
      rewrite <- IH by lia. remember (fold_right Nat.add 0 (map (fun v => N - 1 - v) (seq 0 k))) as S0.
      assert (exists m, N - k = S m) as [m Em] by (exists (N - k - 1); lia). rewrite Em.
      replace (N - S k) with m by lia. replace (N - 1 - k) with m by lia.
      replace (N - 1 - S k) with (m - 1) by lia. destruct m as [|m]; [simpl; lia|].
      replace (S m - 1) with m by lia. ring. }
  specialize (G N (le_n N)). rewrite Nat.sub_diag in G. simpl in G. simpl. lia.
Qed.

(** ** The formation constraints *)

Open Scope R_scope.

Lemma combine_seq_same : forall d, combine (seq 0 d) (seq 0 d) = map (fun k => (k, k)) (seq 0 d).
Proof.
  intros d. generalize 0%nat as a. induction d as [|d IH]; intros a; simpl; trivial. now rewrite IH.
Qed.

Lemma fleet_center_nth : forall pos rel k, (k < length pos)%nat -> (k < length rel)%nat ->
  nth_error (fleet_center pos rel) k = Some (fun t => nth k pos (fun _ => 0) t + nth k rel 0).
Proof.
  intros pos. induction pos as [|p pos IH]; intros [|r rel] k H K; simpl in *; try lia.
  destruct k as [|k]; simpl; [reflexivity|]. apply (IH rel k); lia.
Qed.

Lemma fleet_center_nth' : forall pos rel k t, (k < length pos)%nat -> (k < length rel)%nat ->
  nth k (fleet_center pos rel) (fun _ => 0) t = nth k pos (fun _ => 0) t + nth k rel 0.
Proof.
  intros pos rel k t H K. pose proof (fleet_center_nth pos rel k H K) as E.
  now rewrite (nth_error_nth _ _ _ E).
Qed.

Lemma rel_pos_nth : forall conf k, nth k (rel_pos_c conf) 0 = - nth k conf 0.
Proof.
  intros. unfold rel_pos_c. replace 0 with (- 0) at 1 by lra. now rewrite map_nth.
Qed.

Section Formation.
  Context (N d : nat) (E : list (nat * nat)).
  Context (position : nat -> list (R -> R)) (conf : nat -> list R).

  Let centra := fun v => fleet_center (position v) (rel_pos_c (conf v)).

  Hypothesis Hpos : forall v, (v < N)%nat -> (d <= length (position v))%nat.
  Hypothesis Hconf : forall v, (v < N)%nat -> length (conf v) = d.
  Hypothesis Hrange : forall u v, In (u, v) E -> (u < N)%nat /\ (v < N)%nat.

  Lemma centra_nth : forall v k t, (v < N)%nat -> (k < d)%nat ->
    nth k (centra v) (fun _ => 0) t = nth k (position v) (fun _ => 0) t - nth k (conf v) 0.
  Proof.
    intros v k t Hv Hk. unfold centra. rewrite fleet_center_nth'.
    - rewrite rel_pos_nth. lra.
    - specialize (Hpos v Hv). lia.
    - unfold rel_pos_c. rewrite map_length, Hconf by trivial. trivial.
  Qed.

  Lemma centra_nth_error : forall v k, (v < N)%nat -> (k < d)%nat ->
    nth_error (centra v) k = Some (nth k (centra v) (fun _ => 0)).
  Proof.
    intros v k Hv Hk. unfold centra. rewrite fleet_center_nth.
    - f_equal. symmetry. apply nth_error_nth. apply fleet_center_nth.
      + specialize (Hpos v Hv). lia.
      + unfold rel_pos_c. rewrite map_length, Hconf by trivial. trivial.
    - specialize (Hpos v Hv). lia.
    - unfold rel_pos_c. rewrite map_length, Hconf by trivial. trivial.
  Qed.

  Lemma couple_iff : forall u v, (u < N)%nat -> (v < N)%nat ->
    (couple_holds centra (fun _ => seq 0 d) (u, v) <->
     forall k t, (k < d)%nat -> nth k (centra u) (fun _ => 0) t = nth k (centra v) (fun _ => 0) t).
  Proof.
    intros u v Hu Hv. unfold couple_holds. cbn [fst snd]. rewrite combine_seq_same. split.
    - intros H k t Hk. destruct (H (k, k)) as [f [g [Hf [Hg K]]]].
      { apply in_map_iff. exists k. split; [trivial|apply in_seq; lia]. }
      cbn [fst snd] in *. rewrite centra_nth_error in Hf by trivial.
      rewrite centra_nth_error in Hg by trivial.
      injection Hf as <-. injection Hg as <-. specialize (K t). lra.
    - intros H [k k'] Hk. apply in_map_iff in Hk as [j [Ej Hj]]. injection Ej as <- <-.
      apply in_seq in Hj. exists (nth j (centra u) (fun _ => 0)), (nth j (centra v) (fun _ => 0)).
      cbn [fst snd]. rewrite !centra_nth_error by (trivial; lia).
      split; [trivial|split; [trivial|]]. intros t. rewrite (H j t) by lia. lra.
  Qed.

  Lemma centre_linked : (forall p, In p E -> couple_holds centra (fun _ => seq 0 d) p) ->
    forall u v, linked E u v -> (u < N)%nat -> forall k t, (k < d)%nat ->
    nth k (centra u) (fun _ => 0) t = nth k (centra v) (fun _ => 0) t.
  Proof.
    intros H u v L Hu k t Hk. induction L as [w|u v w L IH Hin|u v w L IH Hin].
    - reflexivity.
    - rewrite IH by trivial. destruct (Hrange v w Hin) as [H1 H2].
      apply (proj1 (couple_iff v w H1 H2)); trivial. now apply H.
    - rewrite IH by trivial. destruct (Hrange w v Hin) as [H1 H2].
      symmetry. apply (proj1 (couple_iff w v H1 H2)); trivial. now apply H.
  Qed.

  Lemma formation_iff : spans N E ->
    ((forall p, In p E -> couple_holds centra (fun _ => seq 0 d) p) <->
     in_formation N d position conf).
  Proof.
    intros S. split.
    - intros H u v k t Hu Hv Hk. pose proof (centre_linked H u v (S u v Hu Hv) Hu k t Hk) as K.
      rewrite !centra_nth in K by trivial. lra.
    - intros H [u v] Hin. destruct (Hrange u v Hin) as [H1 H2].
      apply couple_iff; trivial. intros k t Hk. rewrite !centra_nth by trivial.
      specialize (H u v k t H1 H2 Hk). lra.
  Qed.

  Lemma centre_iff : spans N E ->
    ((forall p, In p E -> couple_holds centra (fun _ => seq 0 d) p) <->
     same_centre N d centra).
  Proof.
    intros S. split.
    - intros H u v k t Hu Hv Hk. exact (centre_linked H u v (S u v Hu Hv) Hu k t Hk).
    - intros H [u v] Hin. destruct (Hrange u v Hin) as [H1 H2].
      apply couple_iff; trivial. intros k t Hk. now apply H.
  Qed.
End Formation.

(** The neighbour tables stay inside the fleet and their couples span it. *)
Lemma neighbours_ok : forall s N nb, neighbours s N = Some nb ->
  (forall u v, In (u, v) (pairs_of N (couples_of nb N)) -> (u < N)%nat /\ (v < N)%nat) /\
  spans N (pairs_of N (couples_of nb N)).
Proof.
  intros s N nb H. unfold neighbours in H.
  destruct (s =? "circular")%string.
  - injection H as <-. split; [|apply circ_spans].
    intros u v K. apply pairs_in in K as [K1 K2]. split; [trivial|].
    apply couples_in in K2 as [_ K2]. now apply (circ_range N u).
  - destruct (s =? "full")%string; [|discriminate]. injection H as <-. split; [|apply full_spans].
    intros u v K. apply pairs_in in K as [K1 K2]. split; [trivial|].
    apply couples_in in K2 as [_ K2]. now apply full_in in K2.
Qed.

Lemma central_ok : forall s N nb c, neighbours s N = Some nb -> (s = "circular" -> (3 <= N)%nat) ->
  central_couples s nb N = Some c ->
  (forall u v, In (u, v) (pairs_of N c) -> (u < N)%nat /\ (v < N)%nat) /\
  spans N (pairs_of N c).
Proof.
  intros s N nb c H HN Hc. unfold neighbours in H. unfold central_couples in Hc.
  destruct (String.eqb_spec s "circular") as [->|Es].
  - specialize (HN eq_refl). injection H as <-.
    assert (Hc' : central_couples "circular" (circ N) N = Some c) by exact Hc.
    split; [|now apply central_spans].
    intros u v K. apply pairs_in in K as [K1 K2]. split; [trivial|].
    destruct (central_circ N HN) as [e [He L]]. rewrite He in Hc'. injection Hc' as ->.
    rewrite L in K2 by trivial.
    destruct (Nat.eqb_spec u 0); [simpl in K2; destruct K2 as [<-|[<-|[]]]; lia|].
    destruct (Nat.ltb_spec (u + 2) N); [simpl in K2; destruct K2 as [<-|[]]; lia|destruct K2].
  - injection Hc as <-. apply (neighbours_ok s). unfold neighbours.
    destruct (String.eqb_spec s "circular"); [contradiction|exact H].
Qed.

Lemma formation_of : forall s N nb d position conf,
  neighbours s N = Some nb ->
  (forall v, (v < N)%nat -> (d <= length (position v))%nat) ->
  (forall v, (v < N)%nat -> length (conf v) = d) ->
  let centra := fun v => fleet_center (position v) (rel_pos_c (conf v)) in
  (forall p, In p (pairs_of N (couples_of nb N)) -> couple_holds centra (fun _ => seq 0 d) p) <->
  in_formation N d position conf.
Proof.
  intros s N nb d position conf H Hp Hc centra. destruct (neighbours_ok s N nb H) as [R S].
  now apply formation_iff.
Qed.

Lemma centre_of : forall s N nb d position conf,
  neighbours s N = Some nb ->
  (forall v, (v < N)%nat -> (d <= length (position v))%nat) ->
  (forall v, (v < N)%nat -> length (conf v) = d) ->
  let centra := fun v => fleet_center (position v) (rel_pos_c (conf v)) in
  (forall p, In p (pairs_of N (couples_of nb N)) -> couple_holds centra (fun _ => seq 0 d) p) <->
  same_centre N d centra.
Proof.
  intros s N nb d position conf H Hp Hc centra. destruct (neighbours_ok s N nb H) as [R S].
  now apply centre_iff.
Qed.

Lemma central_formation_of : forall s N nb c d position conf,
  neighbours s N = Some nb -> (s = "circular" -> (3 <= N)%nat) ->
  central_couples s nb N = Some c ->
  (forall v, (v < N)%nat -> (d <= length (position v))%nat) ->
  (forall v, (v < N)%nat -> length (conf v) = d) ->
  let centra := fun v => fleet_center (position v) (rel_pos_c (conf v)) in
  (forall p, In p (pairs_of N c) -> couple_holds centra (fun _ => seq 0 d) p) <->
  in_formation N d position conf.
Proof.
  intros s N nb c d position conf H HN Hc Hp Hcf centra.
  destruct (central_ok s N nb c H HN Hc) as [R S].
  now apply formation_iff.
Qed.

(** A configuration that names a coordinate other than the leading ones can
    never be satisfied: the centre list has no entry for it. *)
Lemma couple_missing_key : forall centra keys u v k n,
  In (k, n) (combine (keys u) (keys v)) -> (length (centra u) <= k)%nat ->
  ~ couple_holds centra keys (u, v).
Proof.
  intros centra keys u v k n Hin Hk H. destruct (H (k, n) Hin) as [f [g [Hf _]]].
  cbn [fst] in Hf. apply nth_error_None in Hk. congruence.
Qed.

Lemma fleet_center_length : forall pos rel,
  length (fleet_center pos rel) = Nat.min (length pos) (length rel).
Proof. intros. unfold fleet_center. now rewrite map_length, combine_length. Qed.

(** ** Turning the configuration *)

Lemma turned_distance : forall o a b a' b' x y x' y',
  turned o [a; b] = [x; y] -> turned o [a'; b'] = [x'; y'] ->
  (x - x') ^ 2 + (y - y') ^ 2 = (a - a') ^ 2 + (b - b') ^ 2.
Proof.
  intros o a b a' b' x y x' y' H K. unfold turned in *.
  set (c := cos (- o)) in *. set (s := sin (- o)) in *.
  injection H as <- <-. injection K as <- <-.
  assert (E : c * c + s * s = 1).
  { pose proof (sin2_cos2 (- o)) as E. unfold Rsqr in E. fold c s in E. lra. }
  replace ((a * c - b * s - (a' * c - b' * s)) ^ 2 + (a * s + b * c - (a' * s + b' * c)) ^ 2)
    with (((a - a') ^ 2 + (b - b') ^ 2) * (c * c + s * s)) by ring.
  rewrite E. ring.
Qed.

Lemma turned_zero : forall c, turned 0 c = c.
Proof.
  intros [|a [|b [|x c]]]; simpl; trivial. rewrite Ropp_0, cos_0, sin_0. f_equal; [lra|]. f_equal. lra.
Qed.

Lemma turned_length : forall o c, length (turned o c) = length c.
Proof. now intros o [|a [|b [|x c]]]. Qed.

(** ** Rendez-vous stop test *)

Lemma rdv_term_nonneg : forall a b r, 0 <= rdv_term a b r.
Proof.
  intros a b r. unfold rdv_term. generalize (combine (combine a b) r) as l.
  induction l as [|q l IH]; cbn [fold_right]; [lra|].
  pose proof (pow2_ge_0 (fst (fst q) - snd (fst q) - snd q)) as K. lra.
Qed.

Lemma sum_nonneg : forall l, (forall x, In x l -> 0 <= x) -> 0 <= fold_right Rplus 0 l.
Proof.
  induction l as [|x l IH]; intros H; simpl; [lra|].
  assert (0 <= x) by (apply H; simpl; auto).
  assert (0 <= fold_right Rplus 0 l) by (apply IH; intros; apply H; simpl; auto). lra.
Qed.

Lemma sum_member : forall l x, (forall y, In y l -> 0 <= y) -> In x l -> x <= fold_right Rplus 0 l.
Proof.
  induction l as [|y l IH]; intros x H K; simpl in *; [tauto|].
  assert (0 <= y) by (apply H; auto).
  assert (0 <= fold_right Rplus 0 l) by (apply sum_nonneg; intros; apply H; auto).
  destruct K as [->|K]; [lra|]. assert (x <= fold_right Rplus 0 l) by (apply IH; auto). lra.
Qed.

Lemma rdv_in : forall nb N pos rc v n, (v < N)%nat -> In n (nb v) ->
  In (rdv_term (pos v) (pos n) (rc v n))
     (flat_map (fun v => map (fun n => rdv_term (pos v) (pos n) (rc v n)) (nb v)) (seq 0 N)).
Proof.
  intros. apply in_flat_map. exists v. split; [apply in_seq; lia|].
  apply in_map_iff. exists n. auto.
Qed.

Lemma rdv_terms_nonneg : forall nb N pos rc x,
  In x (flat_map (fun v => map (fun n => rdv_term (pos v) (pos n) (rc v n)) (nb v)) (seq 0 N)) -> 0 <= x.
Proof.
  intros nb N pos rc x H. apply in_flat_map in H as [v [_ H]].
  apply in_map_iff in H as [n [<- _]]. apply rdv_term_nonneg.
Qed.

Lemma rdv_term_coord : forall a b r k, (k < length a)%nat -> length b = length a -> length r = length a ->
  (nth k a 0 - nth k b 0 - nth k r 0) ^ 2 <= rdv_term a b r.
Proof.
  induction a as [|x a IH]; intros [|y b] [|z r] k Hk Hb Hr; simpl in Hk, Hb, Hr; try lia.
  unfold rdv_term. cbn [combine fold_right fst snd].
  change (fold_right _ 0 (combine (combine a b) r)) with (rdv_term a b r).
  pose proof (rdv_term_nonneg a b r).
  pose proof (pow2_ge_0 (x - y - z)).
  destruct k as [|k]; cbn [nth].
  - lra.
  - assert ((nth k a 0 - nth k b 0 - nth k r 0) ^ 2 <= rdv_term a b r) by (apply IH; lia). lra.
Qed.

Lemma rdv_term_zero : forall a b r,
  (forall k, (k < length a)%nat -> nth k a 0 - nth k b 0 = nth k r 0) ->
  length b = length a -> length r = length a -> rdv_term a b r = 0.
Proof.
  induction a as [|x a IH]; intros [|y b] [|z r] H Hb Hr; simpl in Hb, Hr; try lia; [reflexivity|].
  unfold rdv_term. cbn [combine fold_right fst snd].
  change (fold_right _ 0 (combine (combine a b) r)) with (rdv_term a b r).
  rewrite IH; try lia.
  - pose proof (H 0%nat) as K. simpl in K. rewrite K by lia. ring.
  - intros k Hk. apply (H (S k)). simpl. lia.
Qed.

Lemma sum_zero : forall l, (forall x, In x l -> x = 0) -> fold_right Rplus 0 l = 0.
Proof.
  induction l as [|x l IH]; intros H; simpl; trivial.
  rewrite (H x) by (simpl; auto). rewrite IH by (intros; apply H; simpl; auto). lra.
Qed.

(** When the test stops, every coordinate of every neighbour pair is within
    0.05 of its configured difference. *)
Lemma rdv_stop_bound : forall nb N pos rc v n k,
  rdv_stop nb N pos rc = true -> (v < N)%nat -> In n (nb v) ->
  (k < length (pos v))%nat -> length (pos n) = length (pos v) -> length (rc v n) = length (pos v) ->
  Rabs (nth k (pos v) 0 - nth k (pos n) 0 - nth k (rc v n) 0) <= 5 / 100.
Proof.
  intros nb N pos rc v n k H Hv Hn Hk L1 L2. unfold rdv_stop in H.
  destruct (Rlt_dec (5 / 100) (sqrt (rdv_residual nb N pos rc))) as [|G]; [discriminate|].
  apply Rnot_lt_le in G.
  assert (B : (nth k (pos v) 0 - nth k (pos n) 0 - nth k (rc v n) 0) ^ 2 <= rdv_residual nb N pos rc).
  { eapply Rle_trans; [apply rdv_term_coord; eassumption|].
    apply sum_member; [apply rdv_terms_nonneg|]. now apply rdv_in. }
  rewrite <- sqrt_Rsqr_abs. eapply Rle_trans; [|exact G]. apply sqrt_le_1_alt.
  unfold Rsqr. simpl in B. lra.
Qed.

Lemma rdv_residual_zero : forall nb N pos rc,
  (forall v n, (v < N)%nat -> In n (nb v) ->
     length (pos n) = length (pos v) /\ length (rc v n) = length (pos v)) ->
  (rdv_residual nb N pos rc = 0 <->
   forall v n k, (v < N)%nat -> In n (nb v) -> (k < length (pos v))%nat ->
     nth k (pos v) 0 - nth k (pos n) 0 = nth k (rc v n) 0).
Proof.
  intros nb N pos rc L. split.
  - intros H v n k Hv Hn Hk. destruct (L v n Hv Hn) as [L1 L2].
    assert (B : (nth k (pos v) 0 - nth k (pos n) 0 - nth k (rc v n) 0) ^ 2 <= rdv_residual nb N pos rc).
    { eapply Rle_trans; [apply rdv_term_coord; eassumption|].
      apply sum_member; [apply rdv_terms_nonneg|]. now apply rdv_in. }
    pose proof (pow2_ge_0 (nth k (pos v) 0 - nth k (pos n) 0 - nth k (rc v n) 0)) as B0.
    assert (B1 : (nth k (pos v) 0 - nth k (pos n) 0 - nth k (rc v n) 0) ^ 2 = 0) by lra.
    simpl in B1. rewrite Rmult_1_r in B1. apply Rsqr_0_uniq in B1. lra.
  - intros H. unfold rdv_residual. apply sum_zero. intros x Hx.
    apply in_flat_map in Hx as [v [Hv Hx]]. apply in_map_iff in Hx as [n [<- Hn]].
    apply in_seq in Hv. destruct (L v n) as [L1 L2]; [lia|trivial|].
    apply rdv_term_zero; trivial. intros k Hk. apply H; trivial; lia.
Qed.

(** With the code's relative configurations, a zero residual means that the
    whole fleet is in formation. *)
Lemma rdv_formation : forall s N nb d pos conf rc,
  neighbours s N = Some nb ->
  (forall v, (v < N)%nat -> length (pos v) = d) ->
  (forall v, (v < N)%nat -> length (conf v) = d) ->
  (forall v n, (v < N)%nat -> In n (nb v) -> rel_config (conf v) (conf n) = Some (rc v n)) ->
  (rdv_residual nb N pos rc = 0 <->
   in_formation N d (fun v => map (fun x (_ : R) => x) (pos v)) conf).
Proof.
  intros s N nb d pos conf rc Hs Hp Hc Hr.
  assert (Hnb : forall v n, (v < N)%nat -> In n (nb v) -> (n < N)%nat).
  { unfold neighbours in Hs. destruct (s =? "circular")%string.
    - injection Hs as <-. intros v n Hv Hn. now apply (circ_range N v).
    - destruct (s =? "full")%string; [|discriminate]. injection Hs as <-.
      intros v n _ Hn. now apply full_in in Hn. }
  assert (Pn : forall v k t, nth k (map (fun x (_ : R) => x) (pos v)) (fun _ => 0) t = nth k (pos v) 0).
  { intros v k t. change (fun _ : R => 0) with ((fun x (_ : R) => x) 0) at 1. now rewrite map_nth. }
  rewrite rdv_residual_zero.
  2:{ intros v n Hv Hn. pose proof (Hnb v n Hv Hn). rewrite !Hp by trivial.
      destruct (rel_config_length _ _ _ (Hr v n Hv Hn)) as [L _]. rewrite L, Hc by trivial. auto. }
  split.
  - intros H.
    assert (G : forall p, In p (pairs_of N (couples_of nb N)) ->
      couple_holds (fun v => fleet_center (map (fun x (_ : R) => x) (pos v)) (rel_pos_c (conf v)))
                   (fun _ => seq 0 d) p).
    { intros [u v] Hin. destruct (neighbours_ok s N nb Hs) as [Rg _].
      destruct (Rg u v Hin) as [Hu Hv]. apply pairs_in in Hin as [_ Hin].
      apply couples_in in Hin as [_ Hin].
      apply (couple_iff N d (fun v => map (fun x (_ : R) => x) (pos v)) conf); trivial.
      { intros w Hw. rewrite map_length, Hp by trivial. lia. }
      intros k t Hk.
      assert (HL : forall w, (w < N)%nat -> (d <= length (map (fun x (_ : R) => x) (pos w)))%nat)
        by (intros w Hw; rewrite map_length, Hp by trivial; lia).
      pose proof (centra_nth N d (fun v => map (fun x (_ : R) => x) (pos v)) conf HL Hc) as CN.
      cbv beta in CN. rewrite !CN by trivial.
      rewrite !Pn. specialize (H u v k Hu Hin). rewrite Hp in H by trivial. specialize (H Hk).
      rewrite (rel_config_nth _ _ _ k (Hr u v Hu Hin)) in H by (rewrite Hc; trivial). lra. }
    apply (formation_of s N nb d (fun v => map (fun x (_ : R) => x) (pos v)) conf Hs); trivial.
    intros w Hw. rewrite map_length, Hp by trivial. lia.
  - intros H v n k Hv Hn Hk. pose proof (Hnb v n Hv Hn) as Hn'. rewrite Hp in Hk by trivial.
    rewrite (rel_config_nth _ _ _ k (Hr v n Hv Hn)) by (rewrite Hc; trivial).
    specialize (H v n k 0 Hv Hn' Hk). cbv beta in H. rewrite !Pn in H. exact H.
Qed.

(** ** Accepting a configuration *)

Lemma neighbours_range : forall s N nb v n, neighbours s N = Some nb -> (v < N)%nat -> In n (nb v) -> (n < N)%nat.
Proof.
  intros s N nb v n H Hv Hn. destruct (neighbours_ok s N nb H) as [P _].
  destruct (couples_cover nb N v n Hv Hn) as [K|K].
  - apply (P v n). apply pairs_in. split; trivial.
  - apply (couples_in nb N n v) in K. tauto.
Qed.

Lemma set_configuration_ok : forall s N nb configuration o, neighbours s N = Some nb ->
  (exists conf, set_configuration nb N configuration o = Some conf) <->
  length configuration = N /\
  forall c c', In c configuration -> In c' configuration -> length c = length c'.
Proof.
  intros s N nb configuration o H. unfold set_configuration.
  set (conf := fun v => nth v (map (turned o) configuration) []).
  assert (Lc : forall v, length (conf v) = length (nth v configuration [])).
  { intros v. unfold conf. change (@nil R) with (turned o []) at 1. rewrite map_nth. apply turned_length. }
  assert (E : forallb (fun v => forallb (fun n =>
          match rel_config (conf v) (conf n) with Some _ => true | None => false end) (nb v)) (seq 0 N) = true <->
     forall v n, (v < N)%nat -> In n (nb v) -> length (conf v) = length (conf n)).
  { rewrite forallb_forall. split.
    - intros K v n Hv Hn. specialize (K v ltac:(apply in_seq; lia)). rewrite forallb_forall in K.
      specialize (K n Hn). unfold rel_config in K.
      destruct (Nat.eqb_spec (length (conf v)) (length (conf n))); [trivial|discriminate].
    - intros K v Hv. apply in_seq in Hv. apply forallb_forall. intros n Hn. unfold rel_config.
      rewrite (K v n) by (trivial; lia). now rewrite Nat.eqb_refl. }
  split.
  - intros [c K]. destruct (Nat.eqb_spec (length configuration) N) as [L|]; [|discriminate].
    split; [trivial|].
    destruct (forallb _ _) in K, E; [|discriminate]. pose proof (proj1 E eq_refl) as Q.
    assert (Q' : forall u v, linked (pairs_of N (couples_of nb N)) u v -> length (conf u) = length (conf v)).
    { intros u v Hl. induction Hl as [|u v w _ IH I|u v w _ IH I]; trivial.
      - apply pairs_in in I as [I1 I2]. apply (couples_in nb) in I2 as [_ I2]. rewrite IH. now apply Q.
      - apply pairs_in in I as [I1 I2]. apply (couples_in nb) in I2 as [_ I2]. rewrite IH. symmetry. now apply Q. }
    intros a a' Ha Ha'. apply (In_nth _ _ []) in Ha as [i [Hi <-]], Ha' as [j [Hj <-]].
    rewrite <- !Lc. apply Q'. apply (proj2 (neighbours_ok s N nb H)); lia.
  - intros [L K]. rewrite L, Nat.eqb_refl.
    replace (forallb _ _) with true; [now exists conf|]. symmetry. apply E. intros v n Hv Hn.
    rewrite !Lc. apply K; apply nth_In; [lia|]. rewrite L. now apply (neighbours_range s N nb v n).
Qed.

Lemma set_configuration_value : forall nb N configuration o conf v, (v < N)%nat ->
  set_configuration nb N configuration o = Some conf -> conf v = turned o (nth v configuration []).
Proof.
  intros nb N configuration o conf v Hv H. unfold set_configuration in H.
  destruct (Nat.eqb_spec (length configuration) N) as [L|]; [|discriminate].
  destruct (forallb _ _) in H; [|discriminate]. injection H as <-.
  change (@nil R) with (turned o []) at 1. now rewrite map_nth.
Qed.
