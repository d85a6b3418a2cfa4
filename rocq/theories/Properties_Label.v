(** Names of exported files and filling of templates (C210, C211). *)
From Coq Require Import Ascii String List Bool Arith Lia Permutation.
From Verif Require Import Label_Model Label_Spec Label_Proofs.
Import ListNotations.
Local Open Scope list_scope.


(* for names and namespaces without underscores rmv_label undoes add_label *)
Theorem C210_round : forall ns b e, ~ In dot b -> ~ In bar b -> ~ In dot ns -> ~ In bar ns -> ~ In dot e ->
  exists g, add_label ns (b ++ dot :: e) = Some g /\ rmv_label g = Some (b ++ dot :: e).
Proof. exact round. Qed.
Example C210_round_ex : exists g, add_label (s "omg") (s "Vehicle.hpp") = Some g /\ rmv_label g = Some (s "Vehicle.hpp").
Proof. apply (C210_round (s "omg") (s "Vehicle") (s "hpp")); intros H; vm_compute in H; intuition discriminate. Qed.
Print Assumptions C210_round.

(* and likewise for lists of names *)
Theorem C210_lists : forall ns l, ~ In dot ns -> ~ In bar ns ->
  Forall (fun f => exists b e, f = b ++ dot :: e /\ ~ In dot b /\ ~ In bar b /\ ~ In dot e) l ->
  exists gs, for_all (add_label ns) l = Some gs /\ for_all rmv_label gs = Some l.
Proof. exact round_all. Qed.
Example C210_lists_ex : exists gs, for_all (add_label (s "omg")) [s "Vehicle.hpp"; s "test.cpp"] = Some gs /\ for_all rmv_label gs = Some [s "Vehicle.hpp"; s "test.cpp"].
Proof.
  apply C210_lists; [intros H; vm_compute in H; intuition discriminate|intros H; vm_compute in H; intuition discriminate|].
  constructor; [exists (s "Vehicle"), (s "hpp")|constructor; [exists (s "test"), (s "cpp")|constructor]];
    (split; [reflexivity|split; [|split]; intros H; vm_compute in H; intuition discriminate]).
Qed.
Print Assumptions C210_lists.

(* the label goes between the name and the extension; directories without a dot are kept *)
Theorem C210_add : forall ns b e, ~ In dot b -> ~ In dot e ->
  add_label ns (b ++ dot :: e) = Some (b ++ bar :: ns ++ dot :: e).
Proof. exact add_plain. Qed.
Example C210_add_ex : add_label (s "omg") (s "/home/x/src/Vehicle.hpp") = Some (s "/home/x/src/Vehicle_omg.hpp").
Proof. apply (C210_add (s "omg") (s "/home/x/src/Vehicle") (s "hpp")); intros H; vm_compute in H; intuition discriminate. Qed.
Print Assumptions C210_add.

(* of a path with further dots everything up to the last but one is lost *)
Theorem C210_dots : forall ns a b e, ~ In dot b -> ~ In dot e ->
  add_label ns (a ++ dot :: b ++ dot :: e) = Some (b ++ bar :: ns ++ dot :: e).
Proof. exact add_dots. Qed.
Example C210_dots_ex : add_label (s "omg") (s "/home/x.y/src/Vehicle.hpp") = Some (s "y/src/Vehicle_omg.hpp").
Proof. apply (C210_dots (s "omg") (s "/home/x") (s "y/src/Vehicle") (s "hpp")); intros H; vm_compute in H; intuition discriminate. Qed.
Print Assumptions C210_dots.

(* an IndexError exactly for names without a dot *)
Theorem C210_error : forall ns f, add_label ns f = None <-> ~ In dot f.
Proof. exact add_none. Qed.
Example C210_error_ex : add_label (s "omg") (s "README") = None.
Proof. apply C210_error. intros H; vm_compute in H; intuition discriminate. Qed.
Print Assumptions C210_error.

(* with a directory that starts with a dot the labelled file is in another directory *)
Theorem C210_dir_refuted : exists ns d f g, ~ In bar ns /\ add_label ns (d ++ f) = Some g /\
  (exists h, add_label ns f = Some h /\ g <> d ++ h).
Proof. exact dir_refuted. Qed.
Print Assumptions C210_dir_refuted.

(* with an underscore in the namespace rmv_label does not give the name back *)
Theorem C210_namespace_refuted : exists ns b e g, ~ In dot b /\ ~ In bar b /\ ~ In dot ns /\ ~ In dot e /\
  add_label ns (b ++ dot :: e) = Some g /\ rmv_label g <> Some (b ++ dot :: e).
Proof. exact namespace_refuted. Qed.
Print Assumptions C210_namespace_refuted.

(* nor with an underscore in the name *)
Theorem C210_name_refuted : exists ns b e g, ~ In dot b /\ ~ In dot ns /\ ~ In bar ns /\ ~ In dot e /\
  add_label ns (b ++ dot :: e) = Some g /\ rmv_label g <> Some (b ++ dot :: e).
Proof. exact name_refuted. Qed.
Print Assumptions C210_name_refuted.

(* filling a template puts the first value of a key at all its places, keeps the places without a value and the rest of the text *)
Theorem C211_fill : forall c data, forall t, clear c t -> plain c data -> fill data (written t) = filled data t.
Proof. exact fill_ok. Qed.
Example C211_fill_ex : fill [(s "a", s "1"); (s "b", s "22")] (s "x@a@;y@b@;@a@;@c@;") = s "x1;y22;1;@c@;".
Proof.
  assert (H := C211_fill ";"%char [(s "a", s "1"); (s "b", s "22")] (s "x", [(s "a", s ";y"); (s "b", s ";"); (s "a", s ";"); (s "c", s ";")])).
  change (s "x1;y22;1;@c@;") with (filled [(s "a", s "1"); (s "b", s "22")] (s "x", [(s "a", s ";y"); (s "b", s ";"); (s "a", s ";"); (s "c", s ";")])).
  apply H.
  - split; [simpl; intuition discriminate|]. repeat constructor; simpl; intuition discriminate.
  - repeat constructor; simpl; intuition discriminate.
Qed.
Print Assumptions C211_fill.

(* the order of the items of the dictionary does not matter *)
Theorem C211_order : forall c d d' t, clear c t -> plain c d -> NoDup (map fst d) -> Permutation d d' ->
  fill d (written t) = fill d' (written t).
Proof. exact fill_order. Qed.
Example C211_order_ex : fill [(s "a", s "1"); (s "b", s "2")] (s "@a@;@b@;") = fill [(s "b", s "2"); (s "a", s "1")] (s "@a@;@b@;").
Proof.
  apply (C211_order ";"%char _ _ ([], [(s "a", s ";"); (s "b", s ";")])).
  - split; [simpl; intuition discriminate|]. repeat constructor; simpl; intuition discriminate.
  - repeat constructor; simpl; intuition discriminate.
  - repeat constructor; simpl; intuition discriminate.
  - apply perm_swap.
Qed.
Print Assumptions C211_order.

(* it does when a key stands as text between two places *)
Theorem C211_between_refuted : exists t d d', ~ In at_ (fst t) /\
  Forall (fun x => ~ In at_ (fst x) /\ ~ In at_ (snd x)) (snd t) /\
  NoDup (map fst d) /\ Permutation d d' /\ fill d (written t) <> fill d' (written t).
Proof. exact between_refuted. Qed.
Print Assumptions C211_between_refuted.
