(** Proofs about names of files and filling of templates. *)
From Coq Require Import Ascii String List Bool Arith Lia Permutation.
From Verif Require Import Label_Model Label_Spec.
Import ListNotations.
Local Open Scope list_scope.

Arguments Ascii.eqb : simpl never.

(* split *)

Lemma split_none c s : ~ In c s -> split c s = [s].
Proof.
  induction s as [|x s IH]; intros H; [reflexivity|]. simpl.
  destruct (Ascii.eqb_spec x c) as [->|N]; [destruct H; left; reflexivity|].
  rewrite IH; [reflexivity|]. intros K. apply H. right. assumption.
Qed.

Lemma split_ne c s : split c s <> [].
Proof.
  destruct s as [|x s]; simpl; [discriminate|].
  destruct (Ascii.eqb x c); [discriminate|]. destruct (split c s); discriminate.
Qed.

Lemma split_app c a b : split c (a ++ c :: b) = split c a ++ split c b.
Proof.
  induction a as [|x a IH]; simpl.
  - rewrite Ascii.eqb_refl. reflexivity.
  - destruct (Ascii.eqb x c); rewrite IH; [reflexivity|].
    pose proof (split_ne c a). destruct (split c a); [easy|reflexivity].
Qed.

Lemma add_plain ns b e : ~ In dot b -> ~ In dot e ->
  add_label ns (b ++ dot :: e) = Some (b ++ bar :: ns ++ dot :: e).
Proof.
  intros Hb He. unfold add_label. rewrite split_app, !split_none by assumption. reflexivity.
Qed.

Lemma add_dots ns a b e : ~ In dot b -> ~ In dot e ->
  add_label ns (a ++ dot :: b ++ dot :: e) = Some (b ++ bar :: ns ++ dot :: e).
Proof.
  intros Hb He. unfold add_label. rewrite !split_app, (split_none dot b), (split_none dot e) by assumption.
  rewrite !rev_app_distr. reflexivity.
Qed.

Lemma add_none ns f : add_label ns f = None <-> ~ In dot f.
Proof.
  split.
  - intros H K. apply in_split in K. destruct K as (a & b & ->). unfold add_label in H.
    rewrite split_app, rev_app_distr in H.
    pose proof (split_ne dot a). pose proof (split_ne dot b).
    destruct (rev (split dot b)) as [|x l] eqn:E.
    + apply (f_equal (@rev str)) in E. rewrite rev_involutive in E. easy.
    + simpl in H. destruct (l ++ rev (split dot a)) eqn:F; [|discriminate].
      apply app_eq_nil in F. destruct F as [_ F]. apply (f_equal (@rev str)) in F.
      rewrite rev_involutive in F. easy.
  - intros H. unfold add_label. rewrite split_none by assumption. reflexivity.
Qed.

Lemma not_in_app {A} (c : A) a b : ~ In c a -> ~ In c b -> ~ In c (a ++ b).
Proof. intros H K L. apply in_app_or in L. tauto. Qed.

Lemma rmv_plain d b n e : ~ In dot d -> ~ In bar b -> ~ In dot b -> ~ In dot n -> ~ In bar n -> ~ In dot e ->
  rmv_label (d ++ bar :: b ++ bar :: n ++ dot :: e) = Some (b ++ dot :: e).
Proof.
  intros Hd Hb Hb' Hn Hn' He. unfold rmv_label.
  replace (d ++ bar :: b ++ bar :: n ++ dot :: e) with ((d ++ bar :: b ++ bar :: n) ++ dot :: e)
    by (rewrite <- !app_assoc; simpl; rewrite <- !app_assoc; reflexivity).
  assert (~ In dot (d ++ bar :: b ++ bar :: n)).
  { apply not_in_app; [assumption|]. intros [K|K]; [discriminate|]. revert K.
    apply not_in_app; [assumption|]. intros [K|K]; [discriminate|]. easy. }
  rewrite split_app, !(split_none dot) by assumption. simpl hd.
  rewrite !split_app, (split_none bar b), (split_none bar n) by assumption.
  rewrite !rev_app_distr. reflexivity.
Qed.

Lemma round ns b e : ~ In dot b -> ~ In bar b -> ~ In dot ns -> ~ In bar ns -> ~ In dot e ->
  exists g, add_label ns (b ++ dot :: e) = Some g /\ rmv_label g = Some (b ++ dot :: e).
Proof.
  intros Hb Hb' Hn Hn' He. exists (b ++ bar :: ns ++ dot :: e). split; [apply add_plain; assumption|].
  unfold rmv_label.
  replace (b ++ bar :: ns ++ dot :: e) with ((b ++ bar :: ns) ++ dot :: e)
    by (rewrite <- !app_assoc; reflexivity).
  assert (~ In dot (b ++ bar :: ns)).
  { apply not_in_app; [assumption|]. intros [K|K]; [discriminate|easy]. }
  rewrite split_app, !(split_none dot) by assumption. simpl hd.
  rewrite split_app, !(split_none bar) by assumption. reflexivity.
Qed.

Lemma round_all ns l : ~ In dot ns -> ~ In bar ns ->
  Forall (fun f => exists b e, f = b ++ dot :: e /\ ~ In dot b /\ ~ In bar b /\ ~ In dot e) l ->
  exists gs, for_all (add_label ns) l = Some gs /\ for_all rmv_label gs = Some l.
Proof.
  intros Hn Hn'. induction 1 as [|f l (b & e & -> & Hb & Hb' & He) _ (gs & A & B)].
  - exists []. split; reflexivity.
  - destruct (round ns b e Hb Hb' Hn Hn' He) as (g & C & D). exists (g :: gs). split.
    + simpl. rewrite C, A. reflexivity.
    + simpl. rewrite D, B. reflexivity.
Qed.

(* replace *)

Lemma repl_skip old new a s : repl old new (length a) (a ++ s) = repl old new 0 s.
Proof. induction a as [|x a IH]; [reflexivity|exact IH]. Qed.

Lemma repl_text k new a s : ~ In at_ a ->
  repl (place k) new 0 (a ++ s) = a ++ repl (place k) new 0 s.
Proof.
  induction a as [|x a IH]; intros H; [reflexivity|].
  rewrite <- !app_comm_cons. cbn [repl]. unfold place at 1. cbn [starts].
  destruct (Ascii.eqb_spec "@"%char x) as [<-|N]; [destruct H; left; reflexivity|].
  simpl andb. cbv iota. rewrite IH; [reflexivity|]. intros K. apply H. right. assumption.
Qed.

(* k and the sign at the front of a text without the sign, followed by it *)
Lemma starts_at k a s : ~ In at_ k -> ~ In at_ a ->
  starts (k ++ [at_]) (a ++ at_ :: s) = true -> k = a.
Proof.
  revert a. induction k as [|x k IH]; intros [|y a] Hk Ha H; simpl in H.
  - reflexivity.
  - apply andb_true_iff in H. destruct H as [H _]. apply Ascii.eqb_eq in H. subst y.
    destruct Ha. left. reflexivity.
  - apply andb_true_iff in H. destruct H as [H _]. apply Ascii.eqb_eq in H. subst x.
    destruct Hk. left. reflexivity.
  - apply andb_true_iff in H. destruct H as [H K]. apply Ascii.eqb_eq in H. subst y. f_equal.
    apply IH; [| |exact K]; intros L; [apply Hk|apply Ha]; right; assumption.
Qed.

Lemma starts_end k a : ~ In at_ a -> starts (k ++ [at_]) a = false.
Proof.
  revert a. induction k as [|x k IH]; intros [|y a] Ha; simpl; try reflexivity.
  - destruct (Ascii.eqb_spec at_ y) as [<-|N]; [destruct Ha; left; reflexivity|reflexivity].
  - rewrite IH; [apply andb_false_r|]. intros L. apply Ha. right. assumption.
Qed.

Lemma starts_self k s : starts (k ++ [at_]) (k ++ at_ :: s) = true.
Proof.
  induction k as [|x k IH]; [reflexivity|]. cbn [app starts]. rewrite Ascii.eqb_refl. exact IH.
Qed.

(* one value filled in *)
Fixpoint sub (k v : str) (l : list (str * str)) : template :=
  match l with
  | [] => ([], [])
  | (k1, t1) :: r =>
      let (p, r') := sub k v r in
      if streq k k1 then (v ++ t1 ++ p, r') else ([], (k1, t1 ++ p) :: r')
  end.

Definition good (c : ascii) (l : list (str * str)) : Prop :=
  Forall (fun x => ~ In at_ (fst x) /\ ~ In at_ (snd x) /\ In c (snd x)) l.

Lemma sub_good c k v l : ~ In at_ v -> good c l ->
  ~ In at_ (fst (sub k v l)) /\ good c (snd (sub k v l)).
Proof.
  intros Hv. induction 1 as [|[k1 t1] l (A & B & C) _ [IH1 IH2]]; simpl.
  - split; [easy|constructor].
  - destruct (sub k v l) as [p r']. simpl in *. destruct (streq k k1); simpl.
    + split; [|assumption]. repeat apply not_in_app; assumption.
    + split; [easy|]. constructor; [|assumption]. simpl. split; [assumption|].
      split; [apply not_in_app; assumption|]. apply in_or_app. left. assumption.
Qed.

Definition tail (l : list (str * str)) : str := concat (map (fun x => place (fst x) ++ snd x) l).

(* behind a kept place no occurrence starts *)
Lemma no_start c k t l : ~ In at_ k -> ~ In c k -> ~ In at_ t -> In c t ->
  starts (k ++ [at_]) (t ++ tail l) = false.
Proof.
  intros Hk Hc Ht Hct. destruct l as [|[k1 t1] l].
  - unfold tail. simpl. rewrite app_nil_r. apply starts_end. assumption.
  - destruct (starts (k ++ [at_]) (t ++ tail ((k1, t1) :: l))) eqn:E; [|reflexivity].
    unfold tail in E. simpl in E. apply starts_at in E; [|assumption|assumption]. subst. easy.
Qed.

Lemma repl_tail c k v l : ~ In at_ k -> ~ In c k -> good c l ->
  repl (place k) v 0 (tail l) = fst (sub k v l) ++ tail (snd (sub k v l)).
Proof.
  intros Hk Hc. induction 1 as [|[k1 t1] l (A & B & C) _ IH]; [reflexivity|].
  simpl in A, B, C. cbn [sub]. destruct (sub k v l) as [p r'] eqn:E. cbn [fst snd] in IH.
  change (tail ((k1, t1) :: l)) with (at_ :: ((k1 ++ [at_]) ++ t1) ++ tail l).
  rewrite <- !app_assoc.
  cbn [repl]. change (starts (place k) (at_ :: k1 ++ [at_] ++ t1 ++ tail l))
    with (starts (k ++ [at_]) (k1 ++ at_ :: t1 ++ tail l)).
  destruct (streq k k1) as [<-|N].
  - rewrite starts_self. cbn [fst snd].
    change (pred (length (place k))) with (length (k ++ [at_])).
    rewrite (app_assoc k [at_]). rewrite repl_skip, repl_text by assumption.
    rewrite IH. rewrite <- !app_assoc. reflexivity.
  - destruct (starts (k ++ [at_]) (k1 ++ at_ :: t1 ++ tail l)) eqn:S;
      [apply starts_at in S; [easy|assumption|assumption]|].
    rewrite repl_text by assumption. cbn [app].
    cbn [repl]. change (starts (place k) (at_ :: t1 ++ tail l)) with (starts (k ++ [at_]) (t1 ++ tail l)).
    rewrite (no_start c) by assumption. rewrite repl_text by assumption. rewrite IH.
    unfold tail. cbn [fst snd map concat]. unfold place. cbn [app].
    rewrite <- !app_assoc. reflexivity.
Qed.

Lemma filled_sub k v d l :
  fst (sub k v l) ++ concat (map (fun x : str * str => match value d (fst x) with Some w => w | None => place (fst x) end ++ snd x) (snd (sub k v l))) =
  concat (map (fun x : str * str => match value ((k, v) :: d) (fst x) with Some w => w | None => place (fst x) end ++ snd x) l).
Proof.
  induction l as [|[k1 t1] l IH]; [reflexivity|].
  cbn [sub map concat fst snd]. rewrite <- IH. destruct (sub k v l) as [p r']. cbn [fst snd value].
  destruct (streq k k1) as [->|N].
  - cbn [fst snd]. rewrite <- !app_assoc. reflexivity.
  - cbn [fst snd map concat app]. rewrite <- !app_assoc. reflexivity.
Qed.

Lemma fill_ok c data : forall t, clear c t -> plain c data -> fill data (written t) = filled data t.
Proof.
  induction data as [|[k v] data IH]; intros [t0 l] [H0 H] P.
  - reflexivity.
  - inversion P as [|? ? (A & B & C) P']; subst. cbn [fst snd] in *.
    unfold fill. cbn [fold_left fst snd]. fold (fill data).
    change ([at_] ++ k ++ [at_]) with (place k).
    unfold replace, written. cbn [fst snd]. rewrite repl_text by assumption.
    fold (tail l). rewrite (repl_tail c) by assumption.
    destruct (sub_good c k v l C H) as [G1 G2].
    rewrite app_assoc. 
    change (fill data (written (t0 ++ fst (sub k v l), snd (sub k v l))) = filled ((k, v) :: data) (t0, l)).
    rewrite IH; [|split; [apply not_in_app; assumption|exact G2]|assumption].
    unfold filled. cbn [fst snd]. rewrite <- app_assoc. f_equal. apply filled_sub.
Qed.

(* order of the items *)
Lemma value_in data k v : NoDup (map fst data) -> In (k, v) data -> value data k = Some v.
Proof.
  induction data as [|[k' v'] data IH]; intros N H; [easy|]. simpl in *.
  inversion N as [|? ? N1 N2]; subst. destruct H as [H|H].
  - injection H as -> ->. destruct (streq k k); [reflexivity|easy].
  - destruct (streq k' k) as [->|_]; [|auto]. destruct N1. apply (in_map fst) in H. exact H.
Qed.

Lemma value_none data k : ~ In k (map fst data) -> value data k = None.
Proof.
  induction data as [|[k' v'] data IH]; intros H; [reflexivity|]. simpl in *.
  destruct (streq k' k) as [->|_]; [destruct H; left; reflexivity|]. apply IH. tauto.
Qed.

Lemma value_perm d d' k : NoDup (map fst d) -> Permutation d d' -> value d k = value d' k.
Proof.
  intros N P. assert (N' : NoDup (map fst d')) by (eapply Permutation_NoDup; [|exact N]; apply Permutation_map; exact P).
  destruct (in_dec streq k (map fst d)) as [H|H].
  - apply in_map_iff in H. destruct H as ([k' v] & E & H). simpl in E. subst k'.
    rewrite (value_in d k v N H). symmetry. apply value_in; [assumption|].
    eapply Permutation_in; eassumption.
  - rewrite value_none by assumption. symmetry. apply value_none. intros K. apply H.
    eapply Permutation_in; [|exact K]. apply Permutation_map, Permutation_sym. exact P.
Qed.

Lemma fill_order c d d' t : clear c t -> plain c d -> NoDup (map fst d) -> Permutation d d' ->
  fill d (written t) = fill d' (written t).
Proof.
  intros H P N Q. rewrite (fill_ok c d) by assumption. rewrite (fill_ok c d').
  - unfold filled. f_equal. f_equal. apply map_ext. intros x. rewrite (value_perm d d') by assumption. reflexivity.
  - assumption.
  - unfold plain in *. rewrite Forall_forall in *. intros x K. apply P.
    eapply Permutation_in; [apply Permutation_sym; exact Q|exact K].
Qed.

(* witnesses *)

Definition s (x : string) : str := list_ascii_of_string x.

Lemma dir_refuted : exists ns d f g, ~ In bar ns /\ add_label ns (d ++ f) = Some g /\
  (exists h, add_label ns f = Some h /\ g <> d ++ h).
Proof.
  exists (s "omg"), (s "./export/src/"), (s "Vehicle.cpp"). eexists. split; [|split; [vm_compute; reflexivity|]].
  - intros H. vm_compute in H. intuition discriminate.
  - eexists. split; [vm_compute; reflexivity|]. vm_compute. discriminate.
Qed.

Lemma namespace_refuted : exists ns b e g, ~ In dot b /\ ~ In bar b /\ ~ In dot ns /\ ~ In dot e /\
  add_label ns (b ++ dot :: e) = Some g /\ rmv_label g <> Some (b ++ dot :: e).
Proof.
  exists (s "my_robot"), (s "Vehicle"), (s "hpp"). eexists.
  split; [|split; [|split; [|split; [|split; [vm_compute; reflexivity|vm_compute; discriminate]]]]];
    intros H; vm_compute in H; intuition discriminate.
Qed.

Lemma name_refuted : exists ns b e g, ~ In dot b /\ ~ In dot ns /\ ~ In bar ns /\ ~ In dot e /\
  add_label ns (b ++ dot :: e) = Some g /\ rmv_label g <> Some (b ++ dot :: e).
Proof.
  exists (s "omg"), (s "my_vehicle"), (s "hpp"). eexists.
  split; [|split; [|split; [|split; [|split; [vm_compute; reflexivity|vm_compute; discriminate]]]]];
    intros H; vm_compute in H; intuition discriminate.
Qed.

(* @a@b@c@ with a text b between the places a and c *)
Lemma between_refuted : exists t d d', ~ In at_ (fst t) /\
  Forall (fun x => ~ In at_ (fst x) /\ ~ In at_ (snd x)) (snd t) /\
  NoDup (map fst d) /\ Permutation d d' /\ fill d (written t) <> fill d' (written t).
Proof.
  exists ([], [(s "a", s "b"); (s "c", [])]), [(s "a", s "1"); (s "b", s "2")], [(s "b", s "2"); (s "a", s "1")].
  split; [easy|]. split; [|split; [|split; [apply perm_swap|vm_compute; discriminate]]].
  - repeat constructor; intros H; vm_compute in H; intuition discriminate.
  - repeat constructor; intros H; vm_compute in H; intuition discriminate.
Qed.
