(** The store of variables: definitions, initial values, reading and writing. *)
From Coq Require Import String Ascii Reals List Arith Bool Lia Lra.
From Verif Require Import Spline_Model Store_Model Store_Spec.
From Verif Require Opti_Model Opti_Proofs2.
Import ListNotations.
Local Open Scope R_scope.
Local Notation length := List.length.
Local Notation dget := Opti_Model.dget.
Local Notation dset := Opti_Model.dset.
Local Notation dhas := Opti_Model.dhas.

Lemma key_ok : forall a b, key_eqb a b = true <-> a = b.
Proof.
  intros [a1 a2] [b1 b2]. unfold key_eqb. cbn [fst snd]. rewrite andb_true_iff, !String.eqb_eq.
  split; [intros [-> ->]; reflexivity|intros H; inversion H; auto].
Qed.
Lemma bind_ok : forall (A B : Type) (x : res A) (f : A -> res B) b,
  bind x f = Ok b <-> exists a, x = Ok a /\ f a = Ok b.
Proof.
  intros A B x f b. destruct x as [a|e]; cbn; split.
  - intros H. exists a. auto.
  - intros [a' [E H]]. inversion E; subst. exact H.
  - discriminate.
  - intros [a' [E _]]. discriminate.
Qed.
Ltac inv H := inversion H; subst; clear H.

Section Dicts.
Context {V : Type}.
Lemma kget_set : forall k k' (v : V) d, dget key_eqb k (dset key_eqb k' v d) = if key_eqb k k' then Some v else dget key_eqb k d.
Proof. apply Opti_Proofs2.dget_dset, key_ok. Qed.
Lemma kget_in : forall k (v : V) d, dget key_eqb k d = Some v -> In (k, v) d.
Proof. apply Opti_Proofs2.dget_in, key_ok. Qed.
Lemma in_kget : forall k (v : V) d, NoDup (map fst d) -> In (k, v) d -> dget key_eqb k d = Some v.
Proof. apply Opti_Proofs2.in_dget, key_ok. Qed.
Lemma sget_set : forall k k' (v : V) d, dget String.eqb k (dset String.eqb k' v d) = if String.eqb k k' then Some v else dget String.eqb k d.
Proof. apply Opti_Proofs2.dget_dset, String.eqb_eq. Qed.
Lemma sget_in : forall k (v : V) d, dget String.eqb k d = Some v -> In (k, v) d.
Proof. apply Opti_Proofs2.dget_in, String.eqb_eq. Qed.
Lemma in_sget : forall k (v : V) d, NoDup (map fst d) -> In (k, v) d -> dget String.eqb k d = Some v.
Proof. apply Opti_Proofs2.in_dget, String.eqb_eq. Qed.
Lemma kget_none : forall k (d : list (key * V)), dget key_eqb k d = None <-> ~ In k (map fst d).
Proof. apply Opti_Proofs2.dget_none, key_ok. Qed.
Lemma sget_none : forall k (d : list (string * V)), dget String.eqb k d = None <-> ~ In k (map fst d).
Proof. apply Opti_Proofs2.dget_none, String.eqb_eq. Qed.
Lemma kset_keys : forall k (v : V) d, In k (map fst d) -> map fst (dset key_eqb k v d) = map fst d.
Proof.
  intros k v d H. rewrite (Opti_Proofs2.dset_keys key_eqb). unfold dhas.
  destruct (dget key_eqb k d) eqn:E; [reflexivity|]. apply kget_none in E. contradiction.
Qed.
Lemma sset_nodup : forall k (v : V) d, NoDup (map fst d) -> NoDup (map fst (dset String.eqb k v d)).
Proof. apply Opti_Proofs2.dset_nodup, String.eqb_eq. Qed.
Lemma sset_in : forall k (v : V) d k', In k' (map fst (dset String.eqb k v d)) <-> k' = k \/ In k' (map fst d).
Proof.
  intros k v d k'. rewrite (Opti_Proofs2.dset_keys String.eqb). unfold dhas.
  destruct (dget String.eqb k d) eqn:E.
  - apply sget_in in E. apply (in_map fst) in E. cbn in E. split; [auto|intros [->|H]; auto].
  - rewrite in_app_iff. cbn. split; intros H; intuition.
Qed.
End Dicts.

(* ---------- children ---------- *)

Definition sound (c : child) : Prop :=
  NoDup (map fst (vars c)) /\ NoDup (map fst (prim c)) /\
  (forall n, In n (map fst (vars c)) -> In n (map fst (vals c))).

Lemma define_mx_sound : forall k n r q v c, sound c -> sound (define_mx k n r q v c).
Proof.
  intros k n r q v c (H1 & H2 & H3). unfold define_mx. destruct k; cbn [vars prim vals]; (split; [|split]); cbn [vars prim vals]; auto.
  - apply sset_nodup; exact H1.
  - intros m Hm. apply sset_in in Hm. apply sset_in. destruct Hm as [->|Hm]; auto.
  - intros m Hm. apply sset_in. auto.
  - intros m Hm. apply sset_in. auto.
Qed.
Lemma define_mx_prim : forall k n r q v c, prim (define_mx k n r q v c) = prim c.
Proof. intros. destruct k; reflexivity. Qed.
Lemma define_mx_label : forall k n r q v c, label (define_mx k n r q v c) = label c.
Proof. intros. destruct k; reflexivity. Qed.
Lemma define_group_sound : forall k n s0 b v c, sound c -> sound (define_group k n s0 b v c).
Proof.
  intros k n s0 b v c H. pose proof (define_mx_sound k n (blen b) s0 v c H) as (H1 & H2 & H3).
  unfold define_group. split; [exact H1|]. split; [|exact H3]. cbn [prim]. apply sset_nodup. exact H2.
Qed.
Lemma define_group_label : forall k n s0 b v c, label (define_group k n s0 b v c) = label c.
Proof. intros. unfold define_group. cbn [label]. apply define_mx_label. Qed.
Lemma fold_group : forall k n s0 b v (P : child -> Prop), (forall m c, P c -> P (define_group k m s0 b v c)) ->
  forall l c, P c -> P (fold_left (fun c i => define_group k (n ++ Opti_Model.py_str i)%string s0 b v c) l c).
Proof. intros k n s0 b v P H. induction l as [|i l IH]; intros c Hc; [exact Hc|]. cbn. apply IH, H, Hc. Qed.
Lemma run_op_sound : forall o c, sound c -> sound (run_op c o).
Proof.
  intros o c H. destruct o; cbn [run_op].
  - apply define_mx_sound, H.
  - unfold define_mx_spline. destruct (1 <? size1)%nat; [|apply define_group_sound, H].
    apply fold_group; [|exact H]. intros; apply define_group_sound; assumption.
  - destruct H as (H1 & H2 & H3). split; [exact H1|]. split; [exact H2|]. cbn [vals set_value vars]. intros n Hn. apply sset_in. auto.
  - split; [constructor|]. split; [constructor|]. intros n [].
Qed.
Lemma run_op_label : forall o c, label (run_op c o) = label c.
Proof.
  intros o c. destruct o; cbn [run_op]; try reflexivity.
  - apply define_mx_label.
  - unfold define_mx_spline. destruct (1 <? size1)%nat; [|apply define_group_label].
    apply (fold_group k name size0 b v (fun c' => label c' = label c)); [|reflexivity].
    intros m c' Hc. rewrite define_group_label. exact Hc.
Qed.
Lemma run_ops_sound : forall ops c, sound c -> sound (run_ops ops c).
Proof. induction ops as [|o ops IH]; intros c H; [exact H|]. cbn. apply IH, run_op_sound, H. Qed.
Lemma new_sound : forall l, sound (new_child l).
Proof. intros l. split; [constructor|]. split; [constructor|]. intros n []. Qed.
Lemma made_sound : forall c, made c -> sound c.
Proof. intros c [ops ->]. apply run_ops_sound, new_sound. Qed.

(* ---------- names that calls do not touch ---------- *)

Definition same_at (n : string) (c c' : child) : Prop :=
  dget String.eqb n (vars c') = dget String.eqb n (vars c) /\
  dget String.eqb n (vals c') = dget String.eqb n (vals c) /\
  dget String.eqb n (prim c') = dget String.eqb n (prim c).
Lemma same_at_trans : forall n a b c, same_at n a b -> same_at n b c -> same_at n a c.
Proof. intros n a b c (A & B & C) (A' & B' & C'). repeat split; congruence. Qed.
Lemma same_at_refl : forall n a, same_at n a a.
Proof. intros. repeat split. Qed.
Lemma define_mx_other : forall k m r q v c n, m <> n -> same_at n c (define_mx k m r q v c).
Proof.
  intros k m r q v c n Hne. assert (E : String.eqb n m = false) by (apply String.eqb_neq; congruence).
  unfold define_mx, same_at. destruct k; cbn [vars vals prim]; rewrite ?sget_set, ?E; auto.
Qed.
Lemma define_group_other : forall k m s0 b v c n, m <> n -> same_at n c (define_group k m s0 b v c).
Proof.
  intros k m s0 b v c n Hne. pose proof (define_mx_other k m (blen b) s0 v c n Hne) as (A & B & C).
  assert (E : String.eqb n m = false) by (apply String.eqb_neq; congruence).
  unfold define_group, same_at. cbn [vars vals prim]. rewrite sget_set, E. auto.
Qed.
Lemma run_op_other : forall o c n, ~ touches n o -> same_at n c (run_op c o).
Proof.
  intros o c n H. destruct o; cbn [run_op touches] in *.
  - apply define_mx_other, H.
  - unfold define_mx_spline. destruct (1 <? size1)%nat eqn:E.
    + apply Nat.ltb_lt in E.
      assert (G : forall l c, (forall i, In i l -> (i < size1)%nat) ->
        same_at n c (fold_left (fun c i => define_group k (name ++ Opti_Model.py_str i)%string size0 b v c) l c)).
      { induction l as [|i l IH]; intros c0 Hl; [apply same_at_refl|]. cbn.
        eapply same_at_trans; [|apply IH; intros; apply Hl; right; assumption].
        apply define_group_other. intros He. apply H. right. split; [exact E|]. exists i. split; [apply Hl; left; reflexivity|congruence]. }
      apply G. intros i Hi. apply in_seq in Hi. lia.
    + apply Nat.ltb_ge in E. apply define_group_other. intros He. apply H. left. auto.
  - unfold same_at. cbn [set_value vars vals prim]. rewrite sget_set.
    assert (E : String.eqb n name = false) by (apply String.eqb_neq; congruence). rewrite E. auto.
  - contradiction.
Qed.
Lemma run_ops_other : forall ops c n, untouched n ops -> same_at n c (run_ops ops c).
Proof.
  induction ops as [|o ops IH]; intros c n H; [apply same_at_refl|]. cbn.
  eapply same_at_trans; [apply run_op_other; apply H; left; reflexivity|].
  apply IH. intros o' Ho'. apply H. right. exact Ho'.
Qed.
Lemma run_ops_app : forall a b c, run_ops (a ++ b) c = run_ops b (run_ops a c).
Proof. intros. unfold run_ops. apply fold_left_app. Qed.

(* ---------- layout ---------- *)

Lemma layout_in : forall cs k sh, In (k, sh) (layout cs) <-> exists c n, In c cs /\ k = (label c, n) /\ is_var c n sh.
Proof.
  intros cs k sh. unfold layout. rewrite in_flat_map. split.
  - intros [c [Hc H]]. apply in_map_iff in H. destruct H as [[n sh'] [E H]]. cbn in E. inv E. exists c, n. auto.
  - intros (c & n & Hc & -> & H). exists c. split; [exact Hc|]. apply in_map_iff. exists (n, sh). auto.
Qed.
Lemma nodup_app_R : forall (A : Type) (l m : list A), NoDup l -> NoDup m -> (forall x, In x l -> ~ In x m) -> NoDup (l ++ m).
Proof.
  intros A. induction l as [|a l IH]; intros m Hl Hm H; [exact Hm|]. inv Hl. cbn. constructor.
  - rewrite in_app_iff. intros [X|X]; [contradiction|]. apply (H a); [left; reflexivity|exact X].
  - apply IH; auto. intros x Hx. apply H. right. exact Hx.
Qed.
Lemma layout_nodup_gen : forall cs, NoDup (map label cs) -> (forall c, In c cs -> NoDup (map fst (vars c))) ->
  NoDup (map fst (layout cs)).
Proof.
  induction cs as [|c cs IH]; intros H1 H2; [constructor|]. inv H1. unfold layout. cbn [flat_map].
  rewrite map_app, map_map. apply nodup_app_R.
  - assert (G : map (fun x : string * shape => fst ((label c, fst x), snd x)) (vars c) = map (fun n => (label c, n)) (map fst (vars c)))
      by (rewrite map_map; reflexivity).
    match goal with |- NoDup ?l => change l with (map (fun x : string * shape => fst ((label c, fst x), snd x)) (vars c)) end.
    rewrite G. apply FinFun.Injective_map_NoDup.
    + intros a b E. inversion E; reflexivity.
    + apply H2. left. reflexivity.
  - apply IH; auto. intros c' Hc'. apply H2. right. exact Hc'.
  - intros [l n] Hx Hy. apply in_map_iff in Hx. destruct Hx as [x [E _]]. cbn in E. inv E.
    apply in_map_iff in Hy. destruct Hy as [[k sh] [E Hy]]. cbn in E. subst k.
    apply (layout_in cs) in Hy. destruct Hy as (c' & n' & Hc' & E & _). inv E.
    apply H3. rewrite H0. apply in_map. exact Hc'.
Qed.
Lemma layout_nodup : forall cs, family cs -> NoDup (map fst (layout cs)).
Proof.
  intros cs [H1 H2]. apply layout_nodup_gen; [exact H1|]. intros c Hc. apply (made_sound c (H2 c Hc)).
Qed.
Lemma layout_get : forall cs c n sh, family cs -> In c cs ->
  (dget key_eqb (label c, n) (layout cs) = Some sh <-> is_var c n sh).
Proof.
  intros cs c n sh F Hc. split.
  - intros H. apply kget_in in H. apply layout_in in H. destruct H as (c' & n' & Hc' & E & H). inv E.
    replace c with c'; [exact H|]. destruct F as [F _].
    clear - F Hc Hc' H1. revert F. induction cs as [|d cs IH]; [contradiction|]. intros F. inv F.
    destruct Hc as [->|Hc], Hc' as [->|Hc']; auto.
    + exfalso. apply H2. rewrite H1. apply in_map. exact Hc'.
    + exfalso. apply H2. rewrite <- H1. apply in_map. exact Hc.
  - intros H. apply in_kget; [apply layout_nodup, F|]. apply layout_in. exists c, n. auto.
Qed.
Lemma same_child : forall cs c c', family cs -> In c cs -> In c' cs -> label c = label c' -> c = c'.
Proof.
  intros cs c c' [F _]. revert F. induction cs as [|d cs IH]; [contradiction|]. intros F Hc Hc' E. inv F.
  destruct Hc as [->|Hc], Hc' as [->|Hc']; auto.
  - exfalso. apply H1. rewrite E. apply in_map. exact Hc'.
  - exfalso. apply H1. rewrite <- E. apply in_map. exact Hc.
Qed.

(* ---------- shapes ---------- *)

Lemma fits_shape : forall sh a, fits sh a = true <-> has_shape sh a.
Proof.
  intros sh a. unfold fits, has_shape. rewrite andb_true_iff, Nat.eqb_eq, forallb_forall.
  split; intros [H1 H2]; split; auto; intros col Hc; apply Nat.eqb_eq; auto.
Qed.
Lemma repeat_shape : forall r m n, has_shape (m, n) (repeat (repeat r m) n).
Proof.
  intros r m n. split; [apply repeat_length|]. intros col Hc. apply repeat_spec in Hc. subst. apply repeat_length.
Qed.
Lemma has_shape_num : forall sh r a, has_shape sh a -> (forall col z, In col a -> In z col -> z = r) ->
  a = repeat (repeat r (fst sh)) (snd sh).
Proof.
  intros [m n] r a [H1 H2] H. cbn [fst snd] in *. subst n. induction a as [|col a IH]; [reflexivity|].
  cbn [length repeat]. f_equal.
  - rewrite <- (H2 col (or_introl eq_refl)). assert (G : forall z, In z col -> z = r) by (intros z Hz; apply (H col z); [left; reflexivity|exact Hz]).
    clear - G. induction col as [|z col IH]; [reflexivity|]. cbn [length repeat]. f_equal; [apply G; left; reflexivity|].
    apply IH. intros y Hy. apply G. right. exact Hy.
  - apply IH; [intros; apply H2; right; assumption|]. intros col' z Hc. apply H. right. exact Hc.
Qed.
Lemma fill_spec : forall sh v a, fill sh v = Ok a <-> stands_for sh v a.
Proof.
  intros sh v a. destruct v as [r|a']; cbn [fill stands_for].
  - split.
    + intros H. inv H. split; [destruct sh; apply repeat_shape|]. intros col z Hc Hz. apply repeat_spec in Hc. subst. apply repeat_spec in Hz. exact Hz.
    + intros [H1 H2]. f_equal. symmetry. apply has_shape_num; assumption.
  - destruct (fits sh a') eqn:E.
    + apply fits_shape in E. split; [intros H; inv H; auto|intros [_ ->]; reflexivity].
    + split; [discriminate|]. intros [H _]. apply fits_shape in H. congruence.
Qed.
Lemma fill_raises : forall sh v e, fill sh v = Raise e -> exists a, v = VArr a /\ ~ has_shape sh a.
Proof.
  intros sh [r|a] e H; cbn in H; [discriminate|]. exists a. split; [reflexivity|]. intros G. apply fits_shape in G. rewrite G in H. discriminate.
Qed.
Lemma stands_shape : forall sh v a, stands_for sh v a -> has_shape sh a.
Proof. intros sh [r|a'] a H; cbn in H; [apply H|]. destruct H as [H ->]. exact H. Qed.
Lemma stands_unique : forall sh v a b, stands_for sh v a -> stands_for sh v b -> a = b.
Proof. intros sh v a b H1 H2. apply fill_spec in H1, H2. congruence. Qed.

(* ---------- the store ---------- *)

Lemma holds_keys : forall cs s, holds cs s -> map fst s = map fst (layout cs).
Proof.
  intros cs s H. unfold holds in H. fold (layout cs) in H. revert H. generalize (layout cs). intros l0 H. induction H as [|ks ka l s [E _] H IH]; [reflexivity|].
  cbn [map]. f_equal; [symmetry; exact E|exact IH].
Qed.
Lemma holds_nodup : forall cs s, family cs -> holds cs s -> NoDup (map fst s).
Proof. intros cs s F H. rewrite (holds_keys cs s H). apply layout_nodup, F. Qed.
Lemma reads_get : forall cs s c n a, family cs -> holds cs s -> (reads s c n a <-> dget key_eqb (label c, n) s = Some a).
Proof. intros cs s c n a F H. split; [apply in_kget, (holds_nodup cs s F H)|apply kget_in]. Qed.
Lemma forall2_in_l : forall (A B : Type) (P : A -> B -> Prop) l m x, Forall2 P l m -> In x l -> exists y, In y m /\ P x y.
Proof. intros A B P l m x H. induction H; intros Hx; [contradiction|]. destruct Hx as [->|Hx]; [exists y; split; [left|]; auto|]. destruct (IHForall2 Hx) as [z [? ?]]. exists z. split; [right|]; auto. Qed.
Lemma forall2_in_r : forall (A B : Type) (P : A -> B -> Prop) l m y, Forall2 P l m -> In y m -> exists x, In x l /\ P x y.
Proof. intros A B P l m y H. induction H; intros Hy; [contradiction|]. destruct Hy as [->|Hy]; [exists x; split; [left|]; auto|]. destruct (IHForall2 Hy) as [z [? ?]]. exists z. split; [right|]; auto. Qed.
(** every variable has exactly one array, of its shape *)
Lemma holds_reads : forall cs s c n sh, family cs -> holds cs s -> In c cs -> is_var c n sh ->
  exists a, reads s c n a /\ has_shape sh a /\ forall a', reads s c n a' -> a' = a.
Proof.
  intros cs s c n sh F H Hc Hv.
  destruct (forall2_in_l _ _ _ _ _ ((label c, n), sh) H) as [[k a] [Ha [E Hs]]].
  - apply (layout_in cs). exists c, n. auto.
  - cbn in E, Hs. subst k. exists a. split; [exact Ha|]. split; [exact Hs|]. intros a' Ha'.
    apply (reads_get cs) in Ha; auto. apply (reads_get cs) in Ha'; auto. congruence.
Qed.
Lemma reads_var : forall cs s c n a, family cs -> holds cs s -> In c cs -> reads s c n a ->
  exists sh, is_var c n sh /\ has_shape sh a.
Proof.
  intros cs s c n a F H Hc Hr. destruct (forall2_in_r _ _ _ _ _ ((label c, n), a) H Hr) as [[k sh] [Ha [E Hs]]].
  cbn in E, Hs. subst k. apply (layout_in cs) in Ha. destruct Ha as (c' & n' & Hc' & E & Hv). inv E.
  exists sh. rewrite (same_child cs c c' F Hc Hc' H1). auto.
Qed.

(* ---------- initial values ---------- *)

Lemma fill_all_spec : forall l s, fill_all l = Ok s <->
  Forall2 (fun kv ka => fst kv = fst ka /\ exists v, snd (snd kv) = Some v /\ stands_for (fst (snd kv)) v (snd ka)) l s.
Proof.
  induction l as [|[k [sh [v|]]] l IH]; intros s; cbn [fill_all].
  - split; [intros H; inv H; constructor|intros H; inv H; reflexivity].
  - rewrite bind_ok. split.
    + intros (a & Ha & H). apply bind_ok in H. destruct H as (r & Hr & H). inv H. constructor.
      * split; [reflexivity|]. exists v. split; [reflexivity|]. apply fill_spec, Ha.
      * apply IH, Hr.
    + intros H. inv H. destruct y as [k' a]. destruct H2 as [E (v' & E2 & Hs)]. cbn in *. inv E2.
      exists a. split; [apply fill_spec, Hs|]. apply bind_ok. exists l'. split; [apply IH; exact H4|reflexivity].
  - split; [discriminate|]. intros H. inv H. destruct H2 as [_ (v' & E2 & _)]. discriminate.
Qed.
Definition given_values (cs : list child) : list (key * (shape * option value)) :=
  flat_map (fun c => map (fun ns => ((label c, fst ns), (snd ns, dget String.eqb (fst ns) (vals c)))) (vars c)) cs.
Lemma given_layout : forall cs, layout cs = map (fun kv => (fst kv, fst (snd kv))) (given_values cs).
Proof.
  intros cs. unfold layout, given_values. rewrite flat_map_concat_map, (flat_map_concat_map _ cs), concat_map, map_map.
  f_equal. apply map_ext. intros c. rewrite map_map. apply map_ext. intros [n sh]. reflexivity.
Qed.
Lemma init_holds : forall cs s, init_variables cs = Ok s -> holds cs s.
Proof.
  intros cs s H. unfold init_variables in H. fold (given_values cs) in H. apply fill_all_spec in H.
  unfold holds. fold (layout cs). rewrite given_layout. clear - H.
  induction H as [|kv ka l s [E (v & E2 & Hs)] H IH]; cbn [map]; constructor; auto.
  cbn [fst snd]. split; [exact E|]. apply (stands_shape _ _ _ Hs).
Qed.
Lemma init_reads : forall cs s c n sh v, family cs -> init_variables cs = Ok s -> In c cs -> is_var c n sh ->
  dget String.eqb n (vals c) = Some v -> exists a, stands_for sh v a /\ reads s c n a.
Proof.
  intros cs s c n sh v F H Hc Hv E. unfold init_variables in H. fold (given_values cs) in H. apply fill_all_spec in H.
  destruct (forall2_in_l _ _ _ _ _ ((label c, n), (sh, Some v)) H) as [[k a] [Ha [Ek (v' & Ev & Hs)]]].
  - unfold given_values. apply in_flat_map. exists c. split; [exact Hc|]. apply in_map_iff. exists (n, sh). cbn. rewrite E. auto.
  - cbn in *. subst k. inv Ev. exists a. auto.
Qed.
(** it raises only for an array of another shape *)
Lemma init_works : forall cs, family cs ->
  (forall c n sh v, In c cs -> is_var c n sh -> dget String.eqb n (vals c) = Some v -> exists a, stands_for sh v a) ->
  exists s, init_variables cs = Ok s.
Proof.
  intros cs F H. unfold init_variables. fold (given_values cs).
  assert (G : forall kv, In kv (given_values cs) -> exists v a, snd (snd kv) = Some v /\ stands_for (fst (snd kv)) v a).
  { intros kv Hkv. unfold given_values in Hkv. apply in_flat_map in Hkv. destruct Hkv as [c [Hc Hkv]].
    apply in_map_iff in Hkv. destruct Hkv as [[n sh] [<- Hn]]. cbn [fst snd].
    destruct (made_sound c (proj2 F c Hc)) as (_ & _ & Hvals).
    destruct (dget String.eqb n (vals c)) as [v|] eqn:E.
    - destruct (H c n sh v Hc Hn E) as [a Ha]. exists v, a. auto.
    - apply sget_none in E. exfalso. apply E, Hvals. apply (in_map fst) in Hn. exact Hn. }
  revert G. generalize (given_values cs). induction l as [|[k [sh o]] l IH]; intros G; [exists []; reflexivity|].
  destruct (G (k, (sh, o)) (or_introl eq_refl)) as (v & a & E & Hs). cbn [fst snd] in *. subst o. cbn [fill_all].
  destruct IH as [r Hr]; [intros; apply G; right; assumption|].
  exists ((k, a) :: r). apply bind_ok. exists a. split; [apply fill_spec, Hs|]. apply bind_ok. exists r. auto.
Qed.

(** what a variable starts from: the value of the last call that names it *)
Lemma plain_gets : forall k n r q v c, 
  dget String.eqb n (vals (define_mx k n r q v c)) =
    Some (match v with Some x => x | None => VArr (repeat (repeat 0 r) q) end) /\
  (k = KVar -> dget String.eqb n (vars (define_mx k n r q v c)) = Some (r, q)).
Proof.
  intros k n r q v c. unfold define_mx. destruct k; cbn [vals vars]; rewrite !sget_set, String.eqb_refl; split; auto; discriminate.
Qed.
Lemma value_plain : forall pre post l n r q v,
  untouched n post -> let c := run_ops (pre ++ Plain KVar n r q v :: post) (new_child l) in
  is_var c n (r, q) /\
  dget String.eqb n (vals c) = Some (match v with Some x => x | None => VArr (repeat (repeat 0 r) q) end) /\
  dget String.eqb n (prim c) = dget String.eqb n (prim (run_ops pre (new_child l))).
Proof.
  intros pre post l n r q v H c. subst c. rewrite run_ops_app. cbn [run_ops fold_left run_op]. fold (run_ops post).
  destruct (run_ops_other post (define_mx KVar n r q v (run_ops pre (new_child l))) n H) as (A & B & C).
  destruct (plain_gets KVar n r q v (run_ops pre (new_child l))) as [P Q].
  split; [|split].
  - apply sget_in. change (fold_left run_op post) with (run_ops post). rewrite A. auto.
  - change (fold_left run_op post) with (run_ops post). rewrite B. exact P.
  - change (fold_left run_op post) with (run_ops post). rewrite C. rewrite define_mx_prim. reflexivity.
Qed.
Lemma group_gets : forall n s0 b v c,
  dget String.eqb n (vals (define_group KVar n s0 b v c)) =
    Some (match v with Some x => x | None => VArr (repeat (repeat 0 (blen b)) s0) end) /\
  dget String.eqb n (vars (define_group KVar n s0 b v c)) = Some (blen b, s0) /\
  dget String.eqb n (prim (define_group KVar n s0 b v c)) = Some b.
Proof.
  intros n s0 b v c. destruct (plain_gets KVar n (blen b) s0 v c) as [P Q]. unfold define_group. cbn [vals vars prim].
  split; [exact P|]. split; [auto|]. rewrite sget_set, String.eqb_refl. reflexivity.
Qed.
Lemma py_str_app_inj : forall n a b, (n ++ Opti_Model.py_str a = n ++ Opti_Model.py_str b)%string -> a = b.
Proof.
  intros n a b H. apply Opti_Proofs.py_str_inj. induction n as [|c n IH]; [exact H|]. cbn in H. inv H. auto.
Qed.
Lemma spline_gets : forall n s0 s1 b v c m,
  ((s1 <= 1)%nat /\ m = n) \/ ((1 < s1)%nat /\ exists l, (l < s1)%nat /\ m = (n ++ Opti_Model.py_str l)%string) ->
  dget String.eqb m (vals (define_mx_spline KVar n s0 s1 b v c)) =
    Some (match v with Some x => x | None => VArr (repeat (repeat 0 (blen b)) s0) end) /\
  dget String.eqb m (vars (define_mx_spline KVar n s0 s1 b v c)) = Some (blen b, s0) /\
  dget String.eqb m (prim (define_mx_spline KVar n s0 s1 b v c)) = Some b.
Proof.
  intros n s0 s1 b v c m [[H ->]|[H (l & Hl & ->)]]; unfold define_mx_spline.
  - replace (1 <? s1)%nat with false by (symmetry; apply Nat.ltb_ge; exact H). apply group_gets.
  - replace (1 <? s1)%nat with true by (symmetry; apply Nat.ltb_lt; exact H).
    assert (SS : seq 0 s1 = (seq 0 l ++ l :: seq (S l) (s1 - S l))%list).
    { replace s1 with (l + S (s1 - S l))%nat at 1 by lia. rewrite seq_app. reflexivity. }
    rewrite SS, fold_left_app. cbn [fold_left].
    set (c0 := fold_left _ (seq 0 l) c).
    assert (G : forall ls c, (forall i, In i ls -> i <> l) -> same_at (n ++ Opti_Model.py_str l)%string c
      (fold_left (fun c i => define_group KVar (n ++ Opti_Model.py_str i)%string s0 b v c) ls c)).
    { induction ls as [|i ls IH]; intros c1 Hls; [apply same_at_refl|]. cbn.
      eapply same_at_trans; [|apply IH; intros; apply Hls; right; assumption].
      apply define_group_other. intros E. apply py_str_app_inj in E. apply (Hls i (or_introl eq_refl) E). }
    destruct (G (seq (S l) (s1 - S l)) (define_group KVar (n ++ Opti_Model.py_str l)%string s0 b v c0)) as (A & B & C).
    { intros i Hi. apply in_seq in Hi. lia. }
    rewrite A, B, C. apply group_gets.
Qed.
Lemma value_group : forall pre post l n s0 s1 b v m,
  untouched m post ->
  ((s1 <= 1)%nat /\ m = n) \/ ((1 < s1)%nat /\ exists l, (l < s1)%nat /\ m = (n ++ Opti_Model.py_str l)%string) ->
  let c := run_ops (pre ++ Group KVar n s0 s1 b v :: post) (new_child l) in
  is_var c m (blen b, s0) /\ is_spline c m b /\
  dget String.eqb m (prim c) = Some b /\
  dget String.eqb m (vals c) = Some (match v with Some x => x | None => VArr (repeat (repeat 0 (blen b)) s0) end).
Proof.
  intros pre post l n s0 s1 b v m H Hm c. subst c. rewrite run_ops_app. cbn [run_ops fold_left run_op].
  change (fold_left run_op post) with (run_ops post). change (fold_left run_op pre) with (run_ops pre).
  destruct (run_ops_other post (define_mx_spline KVar n s0 s1 b v (run_ops pre (new_child l))) m H) as (A & B & C).
  destruct (spline_gets n s0 s1 b v (run_ops pre (new_child l)) m Hm) as (P & Q & R).
  split; [|split; [|split]].
  - apply sget_in. rewrite A. exact Q.
  - apply sget_in. rewrite C. exact R.
  - rewrite C. exact R.
  - rewrite B. exact P.
Qed.
Lemma value_set : forall pre post l n v, untouched n post ->
  let c := run_ops (pre ++ SetValue n v :: post) (new_child l) in
  dget String.eqb n (vals c) = Some v.
Proof.
  intros pre post l n v H c. subst c. rewrite run_ops_app. cbn [run_ops fold_left run_op].
  change (fold_left run_op post) with (run_ops post). change (fold_left run_op pre) with (run_ops pre).
  destruct (run_ops_other post (set_value n v (run_ops pre (new_child l))) n H) as (A & B & C).
  rewrite B. cbn [set_value vals]. rewrite sget_set, String.eqb_refl. reflexivity.
Qed.

(* ---------- writing one entry ---------- *)

Lemma kset_holds : forall cs s k a sh, NoDup (map fst (layout cs)) -> holds cs s -> In (k, sh) (layout cs) -> has_shape sh a ->
  holds cs (dset key_eqb k a s).
Proof.
  intros cs s k a sh N H Hk Hs. unfold holds in *. fold (layout cs) in *. revert H N Hk. generalize (layout cs). intros l0 H.
  induction H as [|[k1 sh1] [k2 a2] l s [E1 E2] H IH]; intros N Hk; [contradiction|]. cbn [fst snd] in *. subst k2.
  cbn [dset Opti_Model.dset]. cbn [map fst] in N. inv N. destruct (key_eqb k k1) eqn:E.
  - apply key_ok in E. subst k1. constructor; [|exact H]. cbn. split; [reflexivity|].
    destruct Hk as [Hk|Hk]; [inv Hk; exact Hs|]. exfalso. apply H2. apply (in_map fst) in Hk. exact Hk.
  - constructor; [split; [reflexivity|exact E2]|]. apply IH; [exact H3|]. destruct Hk as [Hk|Hk]; [|exact Hk]. inv Hk.
    exfalso. rewrite (proj2 (key_ok k k) eq_refl) in E. discriminate.
Qed.
Lemma set_one_spec : forall cs c n v s s', family cs -> holds cs s -> In c cs -> set_one cs c n v s = Ok s' ->
  exists sh a, is_var c n sh /\ stands_for sh v a /\ holds cs s' /\ reads s' c n a /\
  forall c' n' a', (label c', n') <> (label c, n) -> (reads s' c' n' a' <-> reads s c' n' a').
Proof.
  intros cs c n v s s' F H Hc E. unfold set_one in E.
  destruct (dget key_eqb (label c, n) (layout cs)) as [sh|] eqn:El; [|discriminate].
  apply bind_ok in E. destruct E as (a & Ea & E). inv E. apply fill_spec in Ea.
  assert (Hh : holds cs (dset key_eqb (label c, n) a s)).
  { apply (kset_holds cs s (label c, n) a sh); [apply layout_nodup, F|exact H|apply kget_in, El|apply (stands_shape _ _ _ Ea)]. }
  exists sh, a. split; [apply (layout_get cs c n sh F Hc), El|]. split; [exact Ea|]. split; [exact Hh|]. split.
  - apply (reads_get cs); auto. rewrite kget_set, (proj2 (key_ok _ _) eq_refl). reflexivity.
  - intros c' n' a' Hne. rewrite (reads_get cs) by auto. rewrite (reads_get cs) by auto. rewrite kget_set.
    destruct (key_eqb (label c', n') (label c, n)) eqn:Ek; [apply key_ok in Ek; contradiction|]. tauto.
Qed.
Lemma set_one_works : forall cs c n v s, family cs -> In c cs ->
  ((exists s', set_one cs c n v s = Ok s') <-> exists sh a, is_var c n sh /\ stands_for sh v a).
Proof.
  intros cs c n v s F Hc. unfold set_one. split.
  - intros [s' E]. destruct (dget key_eqb (label c, n) (layout cs)) as [sh|] eqn:El; [|discriminate].
    apply bind_ok in E. destruct E as (a & Ea & E). exists sh, a. split; [apply (layout_get cs c n sh F Hc), El|apply fill_spec, Ea].
  - intros (sh & a & Hv & Hs). apply (layout_get cs c n sh F Hc) in Hv. rewrite Hv.
    eexists. apply bind_ok. exists a. split; [apply fill_spec, Hs|reflexivity].
Qed.
(** reading *)
Lemma get_array : forall cs s c n a, family cs -> holds cs s -> In c cs ->
  (get_one c n false s = Ok (Array a) <-> reads s c n a).
Proof.
  intros cs s c n a F H Hc. rewrite (reads_get cs) by auto. unfold get_one.
  destruct (dget key_eqb (label c, n) s) as [a'|]; [|split; discriminate].
  destruct (dget String.eqb n (prim c)); split; intros E; inv E; reflexivity.
Qed.
Lemma get_splines : forall cs s c n b a, family cs -> holds cs s -> In c cs -> is_spline c n b -> reads s c n a ->
  get_one c n true s = Ok (Splines (map (mkS b) a)).
Proof.
  intros cs s c n b a F H Hc Hb Hr. apply (reads_get cs) in Hr; auto. unfold get_one. rewrite Hr.
  rewrite (in_sget n b (prim c)); [reflexivity| |exact Hb]. apply (made_sound c (proj2 F c Hc)).
Qed.
Lemma get_plain : forall cs s c n a, family cs -> holds cs s -> In c cs -> (forall b, ~ is_spline c n b) -> reads s c n a ->
  get_one c n true s = Ok (Array a).
Proof.
  intros cs s c n a F H Hc Hb Hr. apply (reads_get cs) in Hr; auto. unfold get_one. rewrite Hr.
  destruct (dget String.eqb n (prim c)) as [b|] eqn:E; [|reflexivity]. apply sget_in in E. exfalso. apply (Hb b E).
Qed.
Lemma get_none : forall cs s c n e sp, family cs -> holds cs s -> In c cs -> get_one c n sp s = Raise e -> forall sh, ~ is_var c n sh.
Proof.
  intros cs s c n e sp F H Hc E sh Hv. destruct (holds_reads cs s c n sh F H Hc Hv) as (a & Ha & _).
  apply (reads_get cs) in Ha; auto. unfold get_one in E. rewrite Ha in E. destruct (dget String.eqb n (prim c)), sp; discriminate.
Qed.
