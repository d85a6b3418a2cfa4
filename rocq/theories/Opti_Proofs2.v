(* Proofs about dictionaries, symbols and parameters. *)
Require Import List String Ascii ZArith Bool Arith Lia FinFun.
Require Import Verif.Opti_Model Verif.Opti_Spec Verif.Opti_Proofs.
Import ListNotations.
Open Scope string_scope.

Section DictLemmas.
Context {K V : Type} (eqb : K -> K -> bool).
Hypothesis eqb_ok : forall a b, eqb a b = true <-> a = b.
Implicit Types d e : dict K V.

Lemma eqb_refl' a : eqb a a = true.
Proof. now apply eqb_ok. Qed.
Lemma eqb_neq' a b : a <> b -> eqb a b = false.
Proof. intro H. destruct (eqb a b) eqn:E; [|trivial]. apply eqb_ok in E. congruence. Qed.

Lemma dget_dset (k k' : K) (v : V) d :
  dget eqb k (dset eqb k' v d) = if eqb k k' then Some v else dget eqb k d.
Proof.
  induction d as [|[k0 v0] d IH]; simpl; [trivial|].
  destruct (eqb k' k0) eqn:E.
  - apply eqb_ok in E. subst k0. simpl. now destruct (eqb k k').
  - simpl. rewrite IH. destruct (eqb k k0) eqn:E2; [|trivial].
    apply eqb_ok in E2. subst k0. rewrite eqb_neq'; [trivial|].
    intros ->. rewrite eqb_refl' in E. discriminate.
Qed.

Lemma dget_none k d : dget eqb k d = None <-> ~ In k (map fst d).
Proof.
  induction d as [|[k0 v0] d IH]; simpl; [tauto|].
  destruct (eqb k k0) eqn:E.
  - apply eqb_ok in E. subst. split; [discriminate|tauto].
  - rewrite IH. split; [|tauto]. intros H [->|H2]; [|tauto]. rewrite eqb_refl' in E. discriminate.
Qed.

Lemma dget_in k v d : dget eqb k d = Some v -> In (k, v) d.
Proof.
  induction d as [|[k0 v0] d IH]; simpl; [discriminate|].
  destruct (eqb k k0) eqn:E; [|auto]. apply eqb_ok in E. intro H; inversion H; subst; auto.
Qed.

Lemma in_dget k v d : NoDup (map fst d) -> In (k, v) d -> dget eqb k d = Some v.
Proof.
  induction d as [|[k0 v0] d IH]; simpl; [tauto|]. intros N [E|E]; inversion N; subst.
  - inversion E; subst. now rewrite eqb_refl'.
  - rewrite eqb_neq'; [auto|]. intros ->. apply H1. change k0 with (fst (k0, v)). now apply in_map.
Qed.

Lemma dset_keys k v d : map fst (dset eqb k v d) = if dhas eqb k d then map fst d else (map fst d ++ [k])%list.
Proof.
  unfold dhas. induction d as [|[k0 v0] d IH]; simpl; [trivial|].
  destruct (eqb k k0) eqn:E; simpl; [trivial|]. rewrite IH.
  destruct (dget eqb k d); reflexivity.
Qed.

Lemma dset_fresh k v d : dget eqb k d = None -> dset eqb k v d = (d ++ [(k, v)])%list.
Proof.
  induction d as [|[k0 v0] d IH]; simpl; [trivial|].
  destruct (eqb k k0); [discriminate|]. intro H. now rewrite IH.
Qed.

Lemma nodup_snoc {X} (l : list X) x : NoDup l -> ~ In x l -> NoDup (l ++ [x]).
Proof.
  intros N H. rewrite <- (rev_involutive (l ++ [x])). apply NoDup_rev. rewrite rev_app_distr. simpl.
  constructor; [now rewrite <- in_rev|now apply NoDup_rev].
Qed.

Lemma dset_nodup k v d : NoDup (map fst d) -> NoDup (map fst (dset eqb k v d)).
Proof.
  intro N. rewrite dset_keys. unfold dhas. destruct (dget eqb k d) eqn:E; [trivial|].
  apply nodup_snoc; [trivial|]. now apply dget_none.
Qed.

Lemma dget_dupdate e : forall d k, NoDup (map fst e) ->
  dget eqb k (dupdate eqb d e) = match dget eqb k e with Some v => Some v | None => dget eqb k d end.
Proof.
  unfold dupdate. induction e as [|[k0 v0] e IH]; intros d k N; simpl; [trivial|].
  inversion N; subst. rewrite IH by assumption. rewrite dget_dset.
  destruct (eqb k k0) eqn:E.
  - apply eqb_ok in E. subst. rewrite (proj2 (dget_none k0 e)) by assumption. reflexivity.
  - reflexivity.
Qed.

Lemma dupdate_nodup e : forall d, NoDup (map fst d) -> NoDup (map fst (dupdate eqb d e)).
Proof.
  unfold dupdate. induction e as [|[k0 v0] e IH]; intros d N; simpl; [trivial|].
  apply IH. now apply dset_nodup.
Qed.
End DictLemmas.

Notation sget := (dget String.eqb).
Definition s_ok := String.eqb_eq.
Definition n_ok := Nat.eqb_eq.

(* ---------- built children ---------- *)
Section Build.
Context {V : Type}.
Implicit Types (c : child V) (cs : list (child V)).

Definition declared c n := In n (cvars c) \/ In n (cpars c) \/ In n (csyms c).

Record wf_child (c : child V) : Prop := {
  w_nodup : NoDup (map fst (cdict c));
  w_keys : forall k v, In (k, v) (cdict c) ->
     exists n, k = add_label n (clabel c) /\ v = (cid c, n) /\ declared c n;
  w_all : forall n, declared c n -> sget (add_label n (clabel c)) (cdict c) = Some (cid c, n);
  w_vals : forall n, declared c n -> sget n (cvalues c) <> None;
  w_pars : NoDup (cpars c)
}.

Lemma add_key_in n m l : In m (add_key n l) <-> m = n \/ In m l.
Proof.
  unfold add_key. destruct (mem n l) eqn:E.
  - apply mem_spec in E. split; [auto|intros [->|]; auto].
  - rewrite in_app_iff. simpl. intuition congruence.
Qed.
Lemma add_key_nodup n l : NoDup l -> NoDup (add_key n l).
Proof.
  intro N. unfold add_key. destruct (mem n l) eqn:E; [trivial|]. apply nodup_snoc; [trivial|].
  now apply mem_false.
Qed.

Lemma add_label_inj a b l : add_label a l = add_label b l -> a = b.
Proof. unfold add_label. apply app_inj_l. Qed.

Lemma define_declared k n v c m : declared (define_mx k n v c) m <-> m = n \/ declared c m.
Proof.
  unfold declared, define_mx. destruct k; cbn [cvars cpars csyms]; rewrite ?add_key_in; tauto.
Qed.

Lemma dset_keys_in k v k' v' (d : dict string (nat * string)) :
  In (k', v') (dset String.eqb k v d) -> (k', v') = (k, v) \/ In (k', v') d.
Proof.
  induction d as [|[k0 v0] d IH]; simpl; [intuition congruence|].
  destruct (String.eqb k k0) eqn:E; simpl.
  - apply String.eqb_eq in E. subst. intros [H|H]; auto.
  - intros [H|H]; auto. destruct (IH H); auto.
Qed.

Lemma define_wf k n v c : wf_child c -> wf_child (define_mx k n v c).
Proof.
  intros [N Ks A Vs P].
  assert (cdict (define_mx k n v c) = dset String.eqb (add_label n (clabel c)) (cid c, n) (cdict c)) as D
    by (destruct k; reflexivity).
  assert (clabel (define_mx k n v c) = clabel c) as L by (destruct k; reflexivity).
  assert (cid (define_mx k n v c) = cid c) as I by (destruct k; reflexivity).
  assert (cvalues (define_mx k n v c) = dset String.eqb n v (cvalues c)) as W by (destruct k; reflexivity).
  split.
  - rewrite D. now apply (dset_nodup _ s_ok).
  - rewrite D, L, I. intros k' v' H. apply dset_keys_in in H as [H|H].
    + inversion H; subst. exists n. repeat split. apply define_declared. auto.
    + apply Ks in H as (m & ? & ? & ?). exists m. repeat split; auto. apply define_declared. auto.
  - rewrite D, L, I. intros m H. rewrite (dget_dset _ s_ok).
    destruct (String.eqb _ _) eqn:E.
    + apply String.eqb_eq, add_label_inj in E. now subst.
    + apply define_declared in H as [->|H]; [now rewrite String.eqb_refl in E|auto].
  - rewrite W. intros m H. rewrite (dget_dset _ s_ok). destruct (String.eqb m n) eqn:E; [discriminate|].
    apply define_declared in H as [->|H]; [now rewrite String.eqb_refl in E|auto].
  - destruct k; simpl; auto using add_key_nodup.
Qed.

Lemma set_value_wf n v c : wf_child c -> wf_child (set_value n v c).
Proof.
  intros [N Ks A Vs P]. split; auto.
  intros m H. simpl. rewrite (dget_dset _ s_ok). destruct (String.eqb m n); [discriminate|auto].
Qed.

Lemma run_ops_wf ops : forall c, wf_child c -> wf_child (run_ops ops c).
Proof.
  induction ops as [|o ops IH]; intros c H; simpl; [trivial|].
  apply IH. destruct o; simpl; auto using define_wf, set_value_wf.
Qed.

Lemma new_child_wf id l : wf_child (@new_child V id l).
Proof.
  split; simpl; try constructor; try tauto.
  - unfold declared. simpl. tauto.
  - unfold declared. simpl. tauto.
Qed.

Lemma built_wf c : built c -> wf_child c.
Proof. intros (ops & ->). apply run_ops_wf, new_child_wf. Qed.

Lemma run_ops_values ops : forall c n,
  sget n (cvalues (run_ops ops c)) =
    match last_given n ops with Some v => Some v | None => sget n (cvalues c) end.
Proof.
  induction ops as [|o ops IH]; intros c n; simpl; [trivial|].
  rewrite IH. destruct (last_given n ops); [trivial|].
  assert (forall n' v, sget n (dset String.eqb n' v (cvalues c)) =
    match (if string_dec n n' then Some v else None) with Some v => Some v | None => sget n (cvalues c) end) as D.
  { intros n' v. rewrite (dget_dset _ s_ok). destruct (string_dec n n') as [->|E].
    - now rewrite String.eqb_refl.
    - now rewrite (eqb_neq' _ s_ok _ _ E). }
  destruct o as [k n' v|n' v]; simpl; [destruct k; simpl|]; apply D.
Qed.

(* ---------- father ---------- *)
Lemma father_list cs : NoDup (map clabel cs) ->
  father cs = map (fun c => (clabel c, c)) cs.
Proof.
  unfold father. intro N.
  cut (forall l d, NoDup (map fst d ++ map clabel l) ->
    fold_left (fun d c => dset String.eqb (clabel c) c d) l d = (d ++ map (fun c => (clabel c, c)) l)%list).
  { intro H. rewrite H; [reflexivity|exact N]. }
  clear. induction l as [|c l IH]; intros d N; simpl; [now rewrite app_nil_r|].
  simpl in N. rewrite dset_fresh.
  - rewrite IH; [now rewrite <- app_assoc|]. rewrite map_app, <- app_assoc. exact N.
  - apply (dget_none _ s_ok). apply NoDup_remove_2 in N. rewrite in_app_iff in N. tauto.
Qed.
Lemma members_father cs : NoDup (map clabel cs) -> members (father cs) = cs.
Proof.
  intro N. rewrite father_list by assumption. unfold members. rewrite map_map. simpl. apply map_id.
Qed.

Definition good_family cs : Prop :=
  NoDup (map clabel cs) /\ NoDup (map cid cs) /\
  (forall c, In c cs -> built c /\ no_underscore (clabel c)).

Lemma key_owner c n : wf_child c -> no_underscore (clabel c) -> forall m l, no_underscore l ->
  sget (add_label m l) (cdict c) = Some n -> l = clabel c /\ n = (cid c, m) /\ declared c m.
Proof.
  intros W U m l Ul H. apply (dget_in _ s_ok) in H. apply (w_keys _ W) in H as (k & E & -> & D).
  apply no_us_split in E as [-> ->]; auto.
Qed.

Lemma fold_dupdate_other cs k : forall d,
  (forall c, In c cs -> wf_child c /\ sget k (cdict c) = None) ->
  sget k (fold_left (fun d c => dupdate String.eqb d (cdict c)) cs d) = sget k d.
Proof.
  induction cs as [|c cs IH]; intros d H; simpl; [trivial|].
  rewrite IH by (intros; apply H; simpl; auto).
  destruct (H c) as [W E]; [simpl; auto|].
  rewrite (dget_dupdate _ s_ok) by apply W. now rewrite E.
Qed.

Lemma compose_get cs c n : good_family cs -> In c cs -> declared c n ->
  sget (add_label n (clabel c)) (compose_dictionary cs) = Some (cid c, n).
Proof.
  intros (NL & NI & G) Hc D. apply in_split in Hc as (l1 & l2 & ->).
  unfold compose_dictionary. rewrite fold_left_app. simpl.
  assert (forall x, In x (l1 ++ c :: l2) -> wf_child x) as W by (intros x Hx; apply built_wf, G, Hx).
  rewrite fold_dupdate_other.
  - rewrite (dget_dupdate _ s_ok) by (apply W; rewrite in_app_iff; simpl; auto).
    rewrite (w_all c) by (auto; apply W; rewrite in_app_iff; simpl; auto). reflexivity.
  - intros x Hx. assert (In x (l1 ++ c :: l2)) as Hx' by (rewrite in_app_iff; simpl; auto).
    split; [auto|]. destruct (sget _ (cdict x)) eqn:E; [|trivial].
    apply key_owner in E as (E & _); [|auto|apply G; auto|apply G; rewrite in_app_iff; simpl; auto].
    exfalso. rewrite map_app in NL. simpl in NL. apply NoDup_remove_2 in NL.
    apply NL. rewrite in_app_iff. right. rewrite E. now apply in_map.
Qed.

(* ---------- translate_symbols ---------- *)
Lemma defines_spec n c : defines n c = true <-> declares n c.
Proof. unfold defines, declares. rewrite orb_true_iff, !mem_spec. tauto. Qed.

Lemma filter_one {X} (f : X -> bool) l o : filter f l = [o] ->
  exists l1 l2, l = (l1 ++ o :: l2)%list /\ f o = true /\ (forall x, In x l1 \/ In x l2 -> f x = false).
Proof.
  induction l as [|x l IH]; simpl; [discriminate|]. destruct (f x) eqn:E.
  - intro H. inversion H; subst. exists [], l. repeat split; auto. simpl.
    intros y [[]|Hy]. destruct (f y) eqn:Ey; [|trivial].
    assert (In y (filter f l)) as Z by (apply filter_In; auto). rewrite H2 in Z. destruct Z.
  - intro H. destruct (IH H) as (l1 & l2 & -> & Ho & A). exists (x :: l1), l2. repeat split; auto.
    simpl. intros y [[->|Hy]|Hy]; auto.
Qed.
Lemma filter_two {X} (f : X -> bool) l a b r : filter f l = a :: b :: r ->
  exists l1 l2 l3, l = (l1 ++ a :: l2 ++ b :: l3)%list /\ f a = true /\ f b = true.
Proof.
  induction l as [|x l IH]; simpl; [discriminate|]. destruct (f x) eqn:E.
  - intro H. inversion H; subst. rename H2 into H2'.
    assert (exists l2 l3, l = (l2 ++ b :: l3)%list /\ f b = true) as (l2 & l3 & -> & Hb).
    { clear -H2'. assert (In b (filter f l)) as Hb by (rewrite H2'; simpl; auto).
      apply filter_In in Hb as [Hb Fb]. apply in_split in Hb as (l2 & l3 & ->). eauto. }
    exists [], l2, l3. auto.
  - intro H. destruct (IH H) as (l1 & l2 & l3 & -> & A). exists (x :: l1), l2, l3. auto.
Qed.

Lemma owner_filter cs n o : sole_owner cs n o -> filter (defines n) cs = [o].
Proof.
  intros (l1 & l2 & -> & D & A). rewrite filter_app. simpl.
  apply defines_spec in D. rewrite D.
  assert (forall l, (forall c, In c l -> ~ declares n c) -> filter (defines n) l = []) as F.
  { clear. induction l as [|c l IH]; intro A; simpl; [trivial|].
    destruct (defines n c) eqn:E.
    - apply defines_spec in E. exfalso. eapply A; simpl; eauto.
    - apply IH. intros; apply A; simpl; auto. }
  rewrite !F; auto.
Qed.
Lemma filter_owner cs n o : filter (defines n) cs = [o] -> sole_owner cs n o.
Proof.
  intro H. apply filter_one in H as (l1 & l2 & E & Ho & A). exists l1, l2. split; [trivial|].
  split; [now apply defines_spec|]. intros c Hc. rewrite <- defines_spec. rewrite A; auto.
Qed.

Lemma translate_ok_iff cs ps : forall d,
  (exists d', translate cs ps d = Ok d') <->
  (forall c n, In (c, n) ps -> exists o, sole_owner cs n o).
Proof.
  induction ps as [|[c n] ps IH]; intro d; simpl.
  - split; [intros _ c n []|eauto].
  - destruct (filter (defines n) cs) as [|o [|o2 r]] eqn:F.
    + split; [intros [d' H]; discriminate|]. intro H. destruct (H c n (or_introl eq_refl)) as [o Ho].
      apply owner_filter in Ho. congruence.
    + rewrite IH. split.
      * intros H c' n' [E|E]; [inversion E; subst; exists o; now apply filter_owner|eauto].
      * intros H c' n' E. eapply H. right. eauto.
    + split; [intros [d' H]; discriminate|]. intro H. destruct (H c n (or_introl eq_refl)) as [o' Ho].
      apply owner_filter in Ho. congruence.
Qed.

Lemma in_symbol_pairs cs c n : In (c, n) (symbol_pairs cs) <-> In c cs /\ In n (csyms c).
Proof.
  unfold symbol_pairs. rewrite in_flat_map. split.
  - intros (x & Hx & H). apply in_map_iff in H as (m & E & Hm). inversion E; subst. auto.
  - intros [Hc Hn]. exists c. split; [trivial|]. apply in_map_iff. eauto.
Qed.

Lemma translate_error cs ps : forall d e, translate cs ps d = Err e ->
  exists c n, In (c, n) ps /\
   ((e = ValueMultiple /\ two_owners cs n) \/
    (e = ValueUndefined /\ forall c', In c' cs -> ~ declares n c')).
Proof.
  induction ps as [|[c n] ps IH]; intros d e H; simpl in H; [discriminate|].
  destruct (filter (defines n) cs) as [|o [|o2 r]] eqn:F.
  - inversion H; subst. exists c, n. split; [simpl; auto|]. right. split; [trivial|].
    intros c' Hc' D. apply defines_spec in D.
    assert (In c' (filter (defines n) cs)) as Z by (apply filter_In; auto). rewrite F in Z. destruct Z.
  - apply IH in H as (c' & n' & Hin & A). exists c', n'. split; [simpl; auto|trivial].
  - inversion H; subst. exists c, n. split; [simpl; auto|]. left. split; [trivial|].
    apply filter_two in F as (l1 & l2 & l3 & E & Ha & Hb).
    exists l1, o, l2, o2, l3. split; [trivial|]. split; now apply defines_spec.
Qed.

Lemma translate_get cs ps k : forall d d',
  translate cs ps d = Ok d' ->
  (forall c n, In (c, n) ps -> no_underscore (clabel c)) ->
  forall m l, k = add_label m l -> no_underscore l ->
  (exists c o, In (c, m) ps /\ clabel c = l /\ sole_owner cs m o /\ sget k d' = Some (cid o, m)) \/
  ((forall c, In (c, m) ps -> clabel c <> l) /\ sget k d' = sget k d).
Proof.
  induction ps as [|[c n] ps IH]; intros d d' H U m l Ek Ul; simpl in H.
  - inversion H; subst. right. split; [intros c []|trivial].
  - destruct (filter (defines n) cs) as [|o [|o2 r]] eqn:F; try discriminate.
    destruct (IH _ _ H) with (m := m) (l := l) as [(c' & o' & A & B & C & D)|[A B]]; auto.
    + intros c' n' Hin. apply (U c' n'). simpl; auto.
    + left. exists c', o'. simpl. auto.
    + rewrite (dget_dset _ s_ok) in B. destruct (String.eqb k (add_label n (clabel c))) eqn:E.
      * apply String.eqb_eq in E. rewrite Ek in E.
        apply no_us_split in E as [-> ->]; [|auto|eapply U; simpl; auto].
        left. exists c, o. simpl. repeat split; auto. now apply filter_owner.
      * right. split; [|trivial]. intros c' [Hin|Hin]; [|auto]. inversion Hin; subst.
        intros <-. now rewrite String.eqb_refl in E.
Qed.

Lemma find_child_in cs c : NoDup (map cid cs) -> In c cs -> find_child cs (cid c) = Some c.
Proof.
  unfold find_child. induction cs as [|x cs IH]; simpl; [tauto|]. intros N [->|H].
  - now rewrite Nat.eqb_refl.
  - inversion N; subst. destruct (Nat.eqb (cid x) (cid c)) eqn:E; [|auto].
    apply Nat.eqb_eq in E. exfalso. apply H2. rewrite E. now apply in_map.
Qed.

Lemma sole_owner_in cs n o : sole_owner cs n o -> In o cs /\ declares n o.
Proof. intros (l1 & l2 & -> & D & _). split; [rewrite in_app_iff; simpl; auto|trivial]. Qed.

Lemma sole_owner_unique cs n o c : sole_owner cs n o -> In c cs -> declares n c -> c = o.
Proof.
  intros (l1 & l2 & -> & D & A) Hc Dc. rewrite in_app_iff in Hc. simpl in Hc.
  destruct Hc as [Hc|[Hc|Hc]]; auto; exfalso; eapply A; eauto.
Qed.

(* the entry of the problem that the name n of child o stands for *)
Definition entry_of (o : child V) (n : string) : target :=
  if mem n (cvars o) then TVar (clabel o) n else TPar (clabel o) n.

Lemma subst_entry cs d k o n : NoDup (map cid cs) -> In o cs -> declares n o ->
  sget k d = Some (cid o, n) -> substitute_symbol cs d k = Ok (entry_of o n).
Proof.
  intros N Ho D E. unfold substitute_symbol. rewrite E, find_child_in by assumption.
  unfold entry_of. destruct (mem n (cvars o)) eqn:Ev; [trivial|].
  destruct (mem n (cpars o)) eqn:Ep; [trivial|].
  apply mem_false in Ev. apply mem_false in Ep. destruct D; tauto.
Qed.

Lemma binding cs d : good_family cs -> symbol_table cs = Ok d ->
  (forall c n, In c cs -> declares n c ->
     substitute_symbol cs d (add_label n (clabel c)) = Ok (entry_of c n)) /\
  (forall c n, In c cs -> In n (csyms c) ->
     exists o, sole_owner cs n o /\
       substitute_symbol cs d (add_label n (clabel c)) = Ok (entry_of o n)).
Proof.
  intros G H. pose proof G as (NL & NI & Gc).
  assert (forall c n, In (c, n) (symbol_pairs cs) -> no_underscore (clabel c)) as U.
  { intros c n Hin. apply in_symbol_pairs in Hin as [Hin _]. apply Gc. trivial. }
  split.
  - intros c n Hc D.
    destruct (translate_get _ _ (add_label n (clabel c)) _ _ H U n (clabel c)) as
      [(c' & o & A & B & C & E)|[A B]]; auto.
    { apply Gc; trivial. }
    + assert (c = o) as <- by (eapply sole_owner_unique; eauto).
      eapply subst_entry; eauto.
    + eapply subst_entry; eauto. rewrite B. apply compose_get; auto.
      unfold declared. destruct D; auto.
  - intros c n Hc Hn.
    destruct (translate_get _ _ (add_label n (clabel c)) _ _ H U n (clabel c)) as
      [(c' & o & A & B & C & E)|[A B]]; auto.
    { apply Gc; trivial. }
    + exists o. split; [trivial|]. apply sole_owner_in in C as [? ?]. eapply subst_entry; eauto.
    + exfalso. apply (A c); [|trivial]. apply in_symbol_pairs. auto.
Qed.
End Build.

(* ---------- parameters ---------- *)
Section Params.
Context {V : Type}.
Implicit Types (c : child V) (cs : list (child V)) (o : offers_t V).

Definition look2 (id : nat) (n : string) o : option V :=
  match dget Nat.eqb id o with Some dic => sget n dic | None => None end.

Lemma look2_gives offers d id n v : proper_offers (offers d) ->
  (look2 id n (offers d) = Some v <-> gives offers d id n v).
Proof.
  intros [N1 N2]. unfold look2, gives. split.
  - destruct (dget Nat.eqb id (offers d)) as [dic|] eqn:E; [|discriminate].
    intro H. exists dic. split; [now apply (dget_in _ n_ok)|now apply (dget_in _ s_ok)].
  - intros (dic & A & B). rewrite (in_dget _ n_ok _ _ _ N1 A).
    apply (in_dget _ s_ok); [eapply N2; eauto|trivial].
Qed.

Lemma existsb_keys (cur dic : dict string V) :
  existsb (fun key => dhas String.eqb key cur) (map fst dic) = true <->
  exists n, sget n dic <> None /\ sget n cur <> None.
Proof.
  rewrite existsb_exists. unfold dhas. split.
  - intros (n & Hn & H). exists n. split.
    + intro E. apply (dget_none _ s_ok) in E. tauto.
    + destruct (sget n cur); congruence.
  - intros (n & A & B). exists n. split.
    + destruct (in_dec string_dec n (map fst dic)) as [H|H]; [trivial|].
      apply (dget_none _ s_ok) in H. congruence.
    + destruct (sget n cur); congruence.
Qed.

Definition clash o acc := exists id n, look2 id n o <> None /\ look2 id n acc <> None.

Lemma collect_one_spec o : forall acc, proper_offers o ->
  (clash o acc /\ collect_one o acc = Err ValueTwice) \/
  (~ clash o acc /\ exists acc', collect_one o acc = Ok acc' /\
     forall id n, look2 id n acc' = match look2 id n o with Some v => Some v | None => look2 id n acc end).
Proof.
  induction o as [|[id0 dic] o IH]; intros acc [N1 N2]; simpl.
  - right. split; [intros (id & n & A & _); unfold look2 in A; simpl in A; congruence|].
    exists acc. auto.
  - set (acc1 := if dhas Nat.eqb id0 acc then acc else dset Nat.eqb id0 [] acc).
    set (cur := match dget Nat.eqb id0 acc1 with Some d => d | None => [] end).
    assert (forall n, sget n cur = look2 id0 n acc) as Ecur.
    { intro n. unfold cur, acc1, look2, dhas. destruct (dget Nat.eqb id0 acc) eqn:E.
      - now rewrite E.
      - now rewrite (dget_dset _ n_ok), Nat.eqb_refl. }
    assert (NoDup (map fst dic)) as Nd by (eapply N2; simpl; auto).
    inversion N1 as [|? ? Hno N1']; subst.
    assert (proper_offers o) as P by (split; [trivial|intros; eapply N2; simpl; eauto]).
    assert (dget Nat.eqb id0 o = None) as Eo by (now apply (dget_none _ n_ok)).
    assert (forall n, look2 id0 n ((id0, dic) :: o) = sget n dic) as L0.
    { intro n. unfold look2. simpl. now rewrite Nat.eqb_refl. }
    assert (forall id n, id <> id0 -> look2 id n ((id0, dic) :: o) = look2 id n o) as L1.
    { intros id n Hid. unfold look2. simpl. now rewrite (proj2 (Nat.eqb_neq _ _) Hid). }
    destruct (existsb _ _) eqn:E.
    + left. split; [|trivial]. apply existsb_keys in E as (n & A & B).
      exists id0, n. rewrite L0, <- Ecur. auto.
    + assert (~ exists n, sget n dic <> None /\ sget n cur <> None) as NC.
      { intro H. apply existsb_keys in H. congruence. }
      set (acc2 := dset Nat.eqb id0 (dupdate String.eqb cur dic) acc1).
      assert (forall id n, look2 id n acc2 =
        if Nat.eqb id id0 then match sget n dic with Some v => Some v | None => look2 id n acc end
        else look2 id n acc) as L2.
      { intros id n. unfold acc2, look2 at 1. rewrite (dget_dset _ n_ok).
        destruct (Nat.eqb id id0) eqn:Ei.
        - apply Nat.eqb_eq in Ei. subst. rewrite (dget_dupdate _ s_ok) by assumption.
          now rewrite Ecur.
        - unfold acc1, look2, dhas. destruct (dget Nat.eqb id0 acc) eqn:E2; [trivial|].
          rewrite (dget_dset _ n_ok). now rewrite Ei. }
      destruct (IH acc2 P) as [[C R]|[C (acc' & R & L)]].
      * left. split; [|exact R]. destruct C as (id & n & A & B).
        assert (id <> id0) as Hid.
        { intros ->. unfold look2 in A. rewrite Eo in A. congruence. }
        exists id, n. rewrite L1 by assumption. split; [trivial|].
        rewrite L2 in B. now rewrite (proj2 (Nat.eqb_neq _ _) Hid) in B.
      * right. split.
        -- intros (id & n & A & B). destruct (Nat.eq_dec id id0) as [->|Hid].
           ++ apply NC. exists n. rewrite L0 in A. rewrite Ecur. auto.
           ++ apply C. exists id, n. rewrite L1 in A by assumption. split; [trivial|].
              rewrite L2. now rewrite (proj2 (Nat.eqb_neq _ _) Hid).
        -- exists acc'. split; [exact R|]. intros id n. rewrite L, L2.
           destruct (Nat.eq_dec id id0) as [->|Hid].
           ++ rewrite L0, Nat.eqb_refl. unfold look2 at 1. now rewrite Eo.
           ++ rewrite L1 by assumption. now rewrite (proj2 (Nat.eqb_neq _ _) Hid).
Qed.

Lemma collect_spec offers cs : forall acc,
  (forall c, In c cs -> proper_offers (offers c)) ->
  match collect offers cs acc with
  | Ok acc' =>
      (forall id n v, look2 id n acc' = Some v <->
         look2 id n acc = Some v \/ exists d, In d cs /\ gives offers d id n v) /\
      (forall d id n v, In d cs -> gives offers d id n v -> look2 id n acc = None) /\
      ~ given_twice offers cs
  | Err e => e = ValueTwice /\
      ((exists d id n v, In d cs /\ gives offers d id n v /\ look2 id n acc <> None) \/ given_twice offers cs)
  end.
Proof.
  induction cs as [|c cs IH]; intros acc P; simpl.
  - split; [|split].
    + intros. split; [auto|]. intros [H|(d & [] & _)]; trivial.
    + intros d id n v [].
    + intros (l1 & d1 & l2 & d2 & l3 & id & n & v1 & v2 & E & _). destruct l1; discriminate.
  - assert (proper_offers (offers c)) as Pc by (apply P; simpl; auto).
    assert (forall id n v, look2 id n (offers c) = Some v <-> gives offers c id n v) as LG
      by (intros; now apply look2_gives).
    destruct (collect_one_spec (offers c) acc Pc) as [[(id & n & A & B) R]|[NC (acc1 & R & L)]]; rewrite R.
    + split; [trivial|]. left.
      destruct (look2 id n (offers c)) as [v|] eqn:E; [|congruence].
      exists c, id, n, v. split; [simpl; auto|]. split; [now apply LG|trivial].
    + specialize (IH acc1). assert (forall c0, In c0 cs -> proper_offers (offers c0)) as P'
        by (intros; apply P; simpl; auto). specialize (IH P').
      destruct (collect offers cs acc1) as [acc'|e].
      * destruct IH as (I1 & I2 & I3). split; [|split].
        -- intros id n v. rewrite I1, L. split.
           ++ intros [H|(d & Hd & H)].
              ** destruct (look2 id n (offers c)) as [w|] eqn:E; [|auto].
                 inversion H; subst w. right. exists c. split; [auto|now apply LG].
              ** right. eauto.
           ++ intros [H|(d & [->|Hd] & H)].
              ** left. destruct (look2 id n (offers c)) as [w|] eqn:E; [|trivial].
                 exfalso. apply NC. exists id, n. split; congruence.
              ** left. apply LG in H. now rewrite H.
              ** right. eauto.
        -- intros d id n v [->|Hd] H.
           ++ destruct (look2 id n acc) as [w|] eqn:E; [|trivial]. exfalso. apply NC.
              exists id, n. split; [|congruence]. apply LG in H. congruence.
           ++ specialize (I2 d id n v Hd H). rewrite L in I2.
              destruct (look2 id n (offers c)); [discriminate|trivial].
        -- intros (l1 & d1 & l2 & d2 & l3 & id & n & v1 & v2 & E & G1 & G2).
           destruct l1 as [|x l1]; simpl in E; inversion E; subst.
           ++ assert (look2 id n acc1 = None) as Z.
              { apply (I2 d2 id n v2); [|trivial]. rewrite in_app_iff. simpl. auto. }
              rewrite L in Z. apply LG in G1. rewrite G1 in Z. discriminate.
           ++ apply I3. exists l1, d1, l2, d2, l3, id, n, v1, v2. auto.
      * destruct IH as [-> [(d & id & n & v & Hd & H & B)|T]]; split; trivial.
        -- rewrite L in B. destruct (look2 id n (offers c)) as [w|] eqn:E.
           ++ right. apply in_split in Hd as (l1 & l2 & ->).
              exists [], c, l1, d, l2, id, n, w, v. split; [reflexivity|]. split; [now apply LG|trivial].
           ++ left. exists d, id, n, v. simpl. auto.
        -- right. destruct T as (l1 & d1 & l2 & d2 & l3 & id & n & v1 & v2 & -> & G1 & G2).
           exists (c :: l1), d1, l2, d2, l3, id, n, v1, v2. auto.
Qed.

Lemma deliver_one_look pars c n : deliver_one pars c n =
  match look2 (cid c) n pars with
  | Some v => Ok v
  | None => match sget n (cvalues c) with Some v => Ok v | None => Err KeyError end
  end.
Proof.
  unfold deliver_one, look2. destruct (dget Nat.eqb (cid c) pars) as [dic|]; [|trivial].
  now destruct (sget n dic).
Qed.

Lemma deliver_names_spec pars c ns :
  (forall n, In n ns -> sget n (cvalues c) <> None) ->
  exists out, deliver_names pars c ns = Ok out /\ map fst out = map (fun n => (clabel c, n)) ns /\
    forall n v, In ((clabel c, n), v) out -> In n ns /\ deliver_one pars c n = Ok v.
Proof.
  induction ns as [|n ns IH]; intro H; simpl.
  - exists []. simpl. repeat split; auto; tauto.
  - destruct IH as (out & R & K & E); [intros; apply H; simpl; auto|].
    destruct (deliver_one pars c n) as [v|e] eqn:D.
    + rewrite R. eexists. split; [reflexivity|]. simpl. rewrite K. split; [trivial|].
      intros m w [X|X]; [inversion X; subst; auto|]. apply E in X as [? ?]. auto.
    + exfalso. rewrite deliver_one_look in D. destruct (look2 _ _ _); [discriminate|].
      specialize (H n (or_introl eq_refl)). destruct (sget n (cvalues c)); congruence.
Qed.

Lemma deliver_spec pars cs :
  (forall c n, In c cs -> In n (cpars c) -> sget n (cvalues c) <> None) ->
  exists out, deliver pars cs = Ok out /\
    map fst out = flat_map (fun c => map (fun n => (clabel c, n)) (cpars c)) cs /\
    forall l n v, In ((l, n), v) out -> exists c, In c cs /\ clabel c = l /\ In n (cpars c) /\
       deliver_one pars c n = Ok v.
Proof.
  induction cs as [|c cs IH]; intro H; simpl.
  - exists []. repeat split; auto. intros l n v [].
  - destruct IH as (out & R & K & E); [intros; apply H; simpl; auto|].
    destruct (deliver_names_spec pars c (cpars c)) as (o1 & R1 & K1 & E1).
    { intros; apply H; simpl; auto. }
    rewrite R1, R. eexists. split; [reflexivity|]. split; [now rewrite map_app, K1, K|].
    intros l n v X. apply in_app_iff in X as [X|X].
    + assert (In (l, n) (map fst o1)) as Y by (change (l, n) with (fst ((l, n), v)); now apply in_map).
      rewrite K1 in Y. apply in_map_iff in Y as (m & Y & _). inversion Y; subst.
      apply E1 in X as [? ?]. exists c. auto.
    + apply E in X as (c' & ? & ? & ? & ?). exists c'. auto.
Qed.

Lemma set_parameters_spec offers cs :
  (forall c, In c cs -> built c) -> (forall c, In c cs -> proper_offers (offers c)) ->
  NoDup (map clabel cs) ->
  (~ given_twice offers cs ->
   exists out, set_parameters offers cs = Ok out /\ NoDup (map fst out) /\
    (forall l n, In (l, n) (map fst out) <-> exists c, In c cs /\ clabel c = l /\ In n (cpars c)) /\
    (forall c n v, In c cs -> In n (cpars c) ->
       (In ((clabel c, n), v) out <->
         (exists d, In d cs /\ gives offers d (cid c) n v) \/
         ((forall d w, In d cs -> ~ gives offers d (cid c) n w) /\ sget n (cvalues c) = Some v)))) /\
  (given_twice offers cs -> set_parameters offers cs = Err ValueTwice).
Proof.
  intros B P N.
  assert (forall c, In c cs -> wf_child c) as W by (intros; apply built_wf; auto).
  unfold set_parameters. pose proof (collect_spec offers cs [] P) as S.
  destruct (collect offers cs []) as [pars|e].
  - destruct S as (S1 & S2 & S3). split; [|intro T; contradiction]. intros _.
    destruct (deliver_spec pars cs) as (out & R & K & E).
    { intros c n Hc Hn. apply (w_vals c (W c Hc)). unfold declared. auto. }
    assert (NoDup (map fst out)) as ND.
    { rewrite K. clear -N W. induction cs as [|c cs IH]; simpl; [constructor|].
      simpl in N. inversion N as [|? ? Hc N']; subst.
      assert (forall A (l1 l2 : list A), NoDup l1 -> NoDup l2 -> (forall x, In x l1 -> In x l2 -> False) ->
         NoDup (l1 ++ l2)) as DJ.
      { clear. induction l1 as [|x l1 IH]; simpl; intros l2 A1 A2 D; [trivial|]. inversion A1; subst.
        constructor; [rewrite in_app_iff; intros [?|?]; [tauto|eapply D; eauto]|].
        apply IH; auto. intros y ? ?. eapply D; eauto. }
      apply DJ.
      - apply Injective_map_NoDup; [intros a b Hab; congruence|]. apply (w_pars c). apply W; simpl; auto.
      - apply IH; auto. intros; apply W; simpl; auto.
      - intros [l n] H1 H2. apply in_map_iff in H1 as (m & H1 & _). inversion H1; subst.
        apply in_flat_map in H2 as (c' & Hc' & H2). apply in_map_iff in H2 as (m' & H2 & _).
        inversion H2; subst. apply Hc. rewrite <- H0. now apply in_map. }
    assert (forall l n, In (l, n) (map fst out) <-> exists c, In c cs /\ clabel c = l /\ In n (cpars c)) as KI.
    { intros l n. rewrite K, in_flat_map. split.
      - intros (c & Hc & H). apply in_map_iff in H as (m & E' & Hm). inversion E'; subst. eauto.
      - intros (c & Hc & <- & Hn). exists c. split; [trivial|]. now apply in_map. }
    exists out. split; [trivial|]. split; [trivial|]. split; [exact KI|].
    intros c n v Hc Hn. split.
    + intro H. apply E in H as (c' & Hc' & El & Hn' & D).
      assert (c' = c) as ->.
      { clear -N Hc' Hc El. revert N. induction cs as [|x cs IH]; simpl in *; [tauto|].
        intro N. inversion N; subst. destruct Hc' as [->|Hc'], Hc as [->|Hc]; auto.
        - exfalso. apply H1. rewrite El. now apply in_map.
        - exfalso. apply H1. rewrite <- El. now apply in_map. }
      rewrite deliver_one_look in D. destruct (look2 (cid c) n pars) as [w|] eqn:L.
      * inversion D; subst w. apply S1 in L as [L|L]; [unfold look2 in L; discriminate|auto].
      * right. split.
        -- intros d w Hd Hg. assert (look2 (cid c) n pars = Some w) as Z by (apply S1; right; eauto).
           congruence.
        -- destruct (sget n (cvalues c)); inversion D; trivial.
    + intro H1.
      assert (exists w, In ((clabel c, n), w) out) as (w & Hw).
      { assert (In (clabel c, n) (map fst out)) as Z by (apply KI; eauto).
        apply in_map_iff in Z as ([k w] & Ek & Z). simpl in Ek. subst k. eauto. }
      pose proof Hw as Hw'. apply E in Hw' as (c' & Hc' & El & Hn' & D).
      assert (c' = c) as ->.
      { clear -N Hc' Hc El. revert N. induction cs as [|x cs IH]; simpl in *; [tauto|].
        intro N. inversion N; subst. destruct Hc' as [->|Hc'], Hc as [->|Hc]; auto.
        - exfalso. apply H1. rewrite El. now apply in_map.
        - exfalso. apply H1. rewrite <- El. now apply in_map. }
      assert (deliver_one pars c n = Ok v) as Dv.
      { rewrite deliver_one_look. destruct H1 as [(d & Hd & Hg)|[Hno Hv]].
        - assert (look2 (cid c) n pars = Some v) as -> by (apply S1; right; eauto). reflexivity.
        - destruct (look2 (cid c) n pars) as [u|] eqn:L.
          + apply S1 in L as [L|(d & Hd & Hg)]; [unfold look2 in L; discriminate|].
            exfalso. eapply Hno; eauto.
          + now rewrite Hv. }
      congruence.
  - destruct S as [-> T]. split; [|trivial].
    intro NT. destruct T as [(d & id & n & v & _ & _ & X)|T]; [|contradiction].
    unfold look2 in X. simpl in X. congruence.
Qed.
End Params.
