(** Include guards of exported headers (C212). *)
From Coq Require Import Ascii String List Bool Arith Lia.
From Verif Require Import Label_Model Label_Proofs Guard_Model Guard_Spec Guard_Proofs.
Import ListNotations.
Local Open Scope list_scope.

(* decides nowhere on given texts *)
Ltac look := intros a b E N [r K]; vm_compute in E;
  repeat (destruct a as [|? a]; [simpl in E; subst b; vm_compute in K; discriminate|];
          simpl in E; injection E; clear E; intros E _);
  destruct a; simpl in E; [subst b; exact (N eq_refl)|discriminate].


(* the label is the word behind the first #ifndef *)
Theorem C212_label : forall pre l rest, ~ In nl l -> ~ In sp l ->
  nowhere ifndef pre (ifndef ++ sp :: l ++ nl :: rest) ->
  label (pre ++ ifndef ++ sp :: l ++ nl :: rest) = l.
Proof. exact label_found. Qed.
Example C212_label_ex : label (s "//" ++ ifndef ++ sp :: s "V" ++ nl :: s "x") = s "V".
Proof.
  apply C212_label; [intros H; vm_compute in H; intuition discriminate|intros H; vm_compute in H; intuition discriminate|].
  look.
Qed.
Print Assumptions C212_label.

(* every occurrence of the label gets the namespace, and nothing else changes *)
Theorem C212_guard : forall ns pre l rest p ps, l <> [] -> ~ In nl l -> ~ In sp l ->
  nowhere ifndef pre (ifndef ++ sp :: l ++ nl :: rest) ->
  pre ++ ifndef ++ sp :: l ++ nl :: rest = joined l p ps -> only l p ps ->
  set_guard ns (pre ++ ifndef ++ sp :: l ++ nl :: rest) = joined (new_label ns l) p ps.
Proof. exact guard_ok. Qed.
Example C212_guard_ex : set_guard (s "omg") (ifndef ++ sp :: s "V" ++ nl :: s "x V y") = ifndef ++ sp :: s "V_OMG" ++ nl :: s "x V_OMG y".
Proof.
  apply (C212_guard (s "omg") [] (s "V") (s "x V y") (s "#ifndef ") [nl :: s "x "; s " y"]).
  - discriminate.
  - intros H; vm_compute in H; intuition discriminate.
  - intros H; vm_compute in H; intuition discriminate.
  - look.
  - reflexivity.
  - split; [look|split; [look|look]].
Qed.
Print Assumptions C212_guard.

(* the label is followed by an underscore and the namespace in capital letters *)
Theorem C212_capitals : forall ns l, exists u, new_label ns l = l ++ bar :: u /\ Forall2 capital ns u.
Proof. exact new_label_ok. Qed.
Example C212_capitals_ex : exists u, new_label (s "omg2") (s "V") = s "V" ++ bar :: u /\ Forall2 capital (s "omg2") u.
Proof. apply C212_capitals. Qed.
Print Assumptions C212_capitals.

(* a header without #ifndef that ends with a line end gets the namespace before and behind every character *)
Theorem C212_missing : forall ns b, nowhere ifndef (b ++ [nl]) [] ->
  set_guard ns (b ++ [nl]) = new_label ns [] ++ flat_map (fun c => c :: new_label ns []) (b ++ [nl]).
Proof. exact guard_missing. Qed.
Example C212_missing_ex : set_guard (s "omg") (s "ab" ++ [nl]) = s "_OMGa_OMGb_OMG" ++ nl :: s "_OMG".
Proof. rewrite C212_missing; [reflexivity|]. look. Qed.
Print Assumptions C212_missing.

(* its length grows accordingly *)
Theorem C212_missing_length : forall ns b, nowhere ifndef (b ++ [nl]) [] ->
  length (set_guard ns (b ++ [nl])) = (2 + length b) * S (length ns) + S (length b).
Proof. exact missing_length. Qed.
Example C212_missing_length_ex : length (set_guard (s "omg") (s "ab" ++ [nl])) = 19.
Proof. rewrite C212_missing_length; [reflexivity|]. look. Qed.
Print Assumptions C212_missing_length.

(* with a comment behind the label the last word of the comment is changed and the guard is not *)
Theorem C212_comment_refuted : exists ns l c rest, ~ In nl l /\ ~ In sp l /\ ~ In nl c /\
  set_guard ns (ifndef ++ sp :: l ++ sp :: c ++ nl :: rest) =
  ifndef ++ sp :: l ++ sp :: new_label ns c ++ nl :: rest.
Proof. exact comment_refuted. Qed.
Print Assumptions C212_comment_refuted.
