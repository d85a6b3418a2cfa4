(** Proofs about include guards. *)
From Coq Require Import Ascii String List Bool Arith Lia.
From Verif Require Import Label_Model Label_Proofs Guard_Model Guard_Spec.
Import ListNotations.
Local Open Scope list_scope.

Lemma starts_begins w t : starts w t = true <-> begins w t.
Proof.
  revert t. induction w as [|x w IH]; intros t; split.
  - intros _. exists t. reflexivity.
  - reflexivity.
  - destruct t as [|y t]; [discriminate|]. cbn [starts]. intros H. apply andb_true_iff in H.
    destruct H as [E H]. apply Ascii.eqb_eq in E. subst y. apply IH in H. destruct H as [r ->].
    exists r. reflexivity.
  - intros [r ->]. cbn [app starts]. rewrite Ascii.eqb_refl. apply IH. exists r. reflexivity.
Qed.

Lemma nowhere_cons w c p t : nowhere w (c :: p) t -> starts w (c :: p ++ t) = false /\ nowhere w p t.
Proof.
  intros H. split.
  - destruct (starts w (c :: p ++ t)) eqn:E; [|reflexivity]. apply starts_begins in E.
    destruct (H [] (c :: p) eq_refl ltac:(discriminate) E).
  - intros a b E N. apply (H (c :: a) b); [rewrite E; reflexivity|assumption].
Qed.

Lemma repl_nowhere w new p t : nowhere w p t -> repl w new 0 (p ++ t) = p ++ repl w new 0 t.
Proof.
  induction p as [|c p IH]; intros H; [reflexivity|].
  apply nowhere_cons in H. destruct H as [E H]. rewrite <- !app_comm_cons. cbn [repl].
  rewrite E, IH by assumption. reflexivity.
Qed.

Lemma repl_here w new t : w <> [] -> repl w new 0 (w ++ t) = new ++ repl w new 0 t.
Proof.
  intros N. destruct w as [|c w]; [easy|]. rewrite <- app_comm_cons. cbn [repl].
  assert (starts (c :: w) (c :: w ++ t) = true) as -> by (apply starts_begins; exists t; reflexivity).
  cbn [length pred]. rewrite repl_skip. reflexivity.
Qed.

Lemma replace_only w new ps : w <> [] -> forall p, only w p ps ->
  replace w new (joined w p ps) = joined new p ps.
Proof.
  intros N. unfold replace. induction ps as [|q r IH]; intros p H; cbn [joined only] in *.
  - rewrite <- (app_nil_r p) at 1. rewrite repl_nowhere by assumption. simpl. apply app_nil_r.
  - destruct H as [H K]. rewrite repl_nowhere by assumption. rewrite repl_here by assumption.
    rewrite IH by assumption. reflexivity.
Qed.

Lemma from_nowhere pat p t : nowhere pat p (pat ++ t) -> from pat (p ++ pat ++ t) = Some (pat ++ t).
Proof.
  induction p as [|c p IH]; intros H.
  - assert (E : starts pat (pat ++ t) = true) by (apply starts_begins; exists t; reflexivity).
    cbn [app]. destruct (pat ++ t) as [|x l]; cbn [from]; rewrite E; reflexivity.
  - apply nowhere_cons in H. destruct H as [E H]. rewrite <- app_comm_cons. cbn [from].
    rewrite E. apply IH. assumption.
Qed.

Lemma from_none pat s : pat <> [] -> nowhere pat s [] -> from pat s = None.
Proof.
  intros N. induction s as [|c s IH]; intros H.
  - destruct pat; [easy|reflexivity].
  - apply nowhere_cons in H. rewrite app_nil_r in H. destruct H as [E H]. cbn [from]. rewrite E. auto.
Qed.

Lemma label_found pre l rest : ~ In nl l -> ~ In sp l ->
  nowhere ifndef pre (ifndef ++ sp :: l ++ nl :: rest) ->
  label (pre ++ ifndef ++ sp :: l ++ nl :: rest) = l.
Proof.
  intros Hn Hs H. unfold label, cut. rewrite from_nowhere by assumption.
  replace (ifndef ++ sp :: l ++ nl :: rest) with ((ifndef ++ sp :: l) ++ nl :: rest)
    by (rewrite <- app_assoc; reflexivity).
  rewrite split_app, (split_none nl (ifndef ++ sp :: l)).
  - cbn [app hd]. rewrite split_app, (split_none sp l) by assumption. apply last_last.
  - apply not_in_app.
    + intros K. vm_compute in K. intuition discriminate.
    + intros [K|K]; [discriminate|easy].
Qed.

Lemma guard_ok ns pre l rest p ps : l <> [] -> ~ In nl l -> ~ In sp l ->
  nowhere ifndef pre (ifndef ++ sp :: l ++ nl :: rest) ->
  pre ++ ifndef ++ sp :: l ++ nl :: rest = joined l p ps -> only l p ps ->
  set_guard ns (pre ++ ifndef ++ sp :: l ++ nl :: rest) = joined (new_label ns l) p ps.
Proof.
  intros N Hn Hs H E O. unfold set_guard. rewrite label_found by assumption.
  destruct l as [|x l]; [easy|]. unfold replace_any. rewrite E. apply replace_only; [discriminate|assumption].
Qed.

Lemma guard_missing ns b : nowhere ifndef (b ++ [nl]) [] ->
  set_guard ns (b ++ [nl]) = new_label ns [] ++ flat_map (fun c => c :: new_label ns []) (b ++ [nl]).
Proof.
  intros H. unfold set_guard, label, cut. rewrite from_none; [|discriminate|assumption].
  rewrite rev_app_distr. reflexivity.
Qed.

Lemma missing_length ns b : nowhere ifndef (b ++ [nl]) [] ->
  length (set_guard ns (b ++ [nl])) = (2 + length b) * S (length ns) + S (length b).
Proof.
  intros H. rewrite guard_missing by assumption. rewrite app_length.
  assert (L : length (new_label ns []) = S (length ns)) by (unfold new_label; simpl; rewrite map_length; reflexivity).
  assert (F : forall s, length (flat_map (fun c => c :: new_label ns []) s) = length s * S (S (length ns))).
  { induction s as [|c s IH]; [reflexivity|]. cbn [flat_map]. rewrite app_length, IH. cbn [length]. rewrite L. lia. }
  rewrite F, L, app_length. simpl. lia.
Qed.

Lemma up_capital c : capital c (up c).
Proof.
  unfold capital.
  destruct c as [[] [] [] [] [] [] [] []];
  first [ right; split; [intros K; vm_compute in K; intuition discriminate|reflexivity]
        | left;
          let rec go n := (exists n; split; reflexivity) + (go (S n)) in go 0 ].
Qed.

Lemma new_label_ok ns l : exists u, new_label ns l = l ++ bar :: u /\ Forall2 capital ns u.
Proof.
  exists (map up ns). split; [reflexivity|]. induction ns; constructor; [apply up_capital|assumption].
Qed.

(* a comment behind the label *)
Lemma comment_refuted : exists ns l c rest, ~ In nl l /\ ~ In sp l /\ ~ In nl c /\
  set_guard ns (ifndef ++ sp :: l ++ sp :: c ++ nl :: rest) =
  ifndef ++ sp :: l ++ sp :: new_label ns c ++ nl :: rest.
Proof.
  exists (s "omg"), (s "VEHICLE"), (s "//"), (s "int x;"). repeat split;
    try (intros H; vm_compute in H; intuition discriminate).
Qed.
