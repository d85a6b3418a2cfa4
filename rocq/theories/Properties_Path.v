(** Reading the paths of an svg figure (C207-C209). *)
From Coq Require Import QArith ZArith List Bool Arith Lia.
From Verif Require Import Path_Model Path_Spec Path_Proofs.
Import ListNotations.
Local Open Scope Q_scope.


(* a path of one M line with a point and c and C lines with three points each, then letters without numbers, written with a point in every number or in none and any number of blanks around the numbers of a line, gives the points it stands for *)
Theorem C207_points : forall bs p junk, path_proper p -> uniform p -> Forall (fun c => ~ isbody c) junk ->
  exists out, path (path_text bs p ++ junk) = Ok out /\ same out (meaning p).
Proof. exact path_points. Qed.
(* M 1.5,2. c  1.,0. 1.,0.-3.5,2.zm *)
Example C207_points_ex : exists out, path [L MAbs; Sp; Dg 1; Dot; Dg 5; Comma; Dg 2; Dot; Sp; L CRel; Sp; Sp; Dg 1; Dot; Comma; Dg 0; Dot; Sp; Dg 1; Dot; Comma; Dg 0; Dot; Minus; Dg 3; Dot; Dg 5; Comma; Dg 2; Dot; Other; L MRel] = Ok out
  /\ same out [3#2; 2; 5#2; 2; 5#2; 2; -(2); 4].
Proof.
  set (p := (({| neg := false; ip := [1%nat]; fp := Some [5%nat] |}, [(AComma, {| neg := false; ip := [2%nat]; fp := Some [] |})]),
    [(true, ({| neg := false; ip := [1%nat]; fp := Some [] |},
      [(AComma, {| neg := false; ip := [0%nat]; fp := Some [] |}); (ASpace, {| neg := false; ip := [1%nat]; fp := Some [] |});
       (AComma, {| neg := false; ip := [0%nat]; fp := Some [] |}); (Nothing, {| neg := true; ip := [3%nat]; fp := Some [5%nat] |});
       (AComma, {| neg := false; ip := [2%nat]; fp := Some [] |})]))]) : wpath).
  destruct (C207_points [(1, 1); (2, 0)]%nat p [Other; L MRel]) as (out & E & S).
  - unfold path_proper, proper, written, fits, p. simpl.
    repeat match goal with
    | |- _ /\ _ => split
    | |- _ <-> _ => split
    | |- Forall _ _ => constructor; simpl
    | |- _ -> _ => intros; discriminate
    | |- _ => first [discriminate|reflexivity]
    end.
  - left. unfold all_nums, p. simpl. repeat constructor; discriminate.
  - repeat constructor; intros H; exact H.
  - exists out. split; [exact E|]. unfold same in *.
    assert (G : forall (l : list num) a b, Forall2 (fun v q => val v == q) l a -> Forall2 Qeq a b -> Forall2 (fun v q => val v == q) l b).
    { intros l a b K. revert b. induction K as [|v q l a K0 _ IH]; intros b M; inversion M; subst; constructor.
      - rewrite K0. assumption.
      - auto. }
    apply (G _ _ _ S). vm_compute. repeat constructor.
Qed.
Print Assumptions C207_points.

(* a written number has its value, and is a float exactly when it has a point *)
Theorem C207_number : forall w, written w ->
  exists v, eval (wtext w) = Some v /\ isf v = tf w /\ val v == wval w.
Proof. exact eval_text. Qed.
Example C207_number_ex : exists v, eval [Minus; Dot; Dg 2; Dg 5] = Some v /\ isf v = true /\ val v == -(1#4).
Proof.
  destruct (C207_number {| neg := true; ip := []; fp := Some [2%nat; 5%nat] |} ltac:(discriminate)) as (v & A & B & C).
  exists v. split; [exact A|]. split; [exact B|]. rewrite C. reflexivity.
Qed.
Print Assumptions C207_number.

(* the numbers of a c line after the first six are read as they are written *)
Theorem C207_rest : forall bs m l, proper (fst m) (snd m) -> length (nums m) = 2%nat -> proper (fst l) (snd l) ->
  exists out, path (path_text bs (m, [(true, l)])) = Ok out /\
    length out = (2 + length (nums l))%nat /\
    same (skipn 8 out) (skipn 6 (map wval (nums l))).
Proof. exact path_rest. Qed.
(* M1.5,2.0c1,0,2,0,3,0,4 *)
Example C207_rest_ex : exists out, path [L MAbs; Dg 1; Dot; Dg 5; Comma; Dg 2; Dot; Dg 0; L CRel; Dg 1; Comma; Dg 0; Comma; Dg 2; Comma; Dg 0; Comma; Dg 3; Comma; Dg 0; Comma; Dg 4] = Ok out
  /\ exists v, skipn 8 out = [v] /\ val v == 4.
Proof.
  destruct (C207_rest [] (n_pt 1 5, [cm (n_pt 2 0)]) (n_int 1, map cm [n_int 0; n_int 2; n_int 0; n_int 3; n_int 0; n_int 4])) as (out & A & _ & B).
  - unfold proper, written, fits. simpl. wf.
  - reflexivity.
  - unfold proper, written, fits. simpl. wf.
  - exists out. split; [exact A|]. inversion B as [|v ? r ? H1 H2]; subst. inversion H2; subst.
    exists v. split; [symmetry; assumption|]. rewrite H1. reflexivity.
Qed.
Print Assumptions C207_rest.

(* a path that mixes numbers with and without a point can give other points: the sums are cut to integers *)
Theorem C207_mixed_refuted : exists p, path_proper p /\
  ~ (exists out, path (path_text [] p) = Ok out /\ same out (meaning p)).
Proof. exact mixed_refuted. Qed.
Print Assumptions C207_mixed_refuted.

(* a c line with several curves gives other points: only the first six numbers are made absolute *)
Theorem C207_long_refuted : exists p out, proper (fst (fst p)) (snd (fst p)) /\
  Forall (fun l => proper (fst l) (snd l) /\ length (nums l) = 12%nat) (map snd (snd p)) /\ uniform p /\
  path (path_text [] p) = Ok out /\ ~ same out (meaning_long p).
Proof. exact long_refuted. Qed.
Print Assumptions C207_long_refuted.

(* a comma or a space before a minus sign ends in a SyntaxError *)
Theorem C208_minus : forall a b s, s <> Nothing -> (exists d, In (Dg d) a) ->
  Forall isbody a -> Forall isbody b ->
  path (L MAbs :: a ++ stext s ++ Minus :: b) = SyntaxError.
Proof. exact comma_minus_path. Qed.
(* M5,-2 *)
Example C208_minus_ex : path [L MAbs; Dg 5; Comma; Minus; Dg 2] = SyntaxError.
Proof.
  apply (C208_minus [Dg 5] [Dg 2] AComma); [discriminate|exists 5%nat; left; reflexivity|repeat constructor|repeat constructor].
Qed.
Print Assumptions C208_minus.

(* a path that cannot be read ends the conversion: the paths before it are written, those after it are not *)
Theorem C208_stops : forall l outs s r, Forall2 (fun s o => path s = Ok o) l outs ->
  (forall o, path s <> Ok o) -> write (l ++ s :: r) = (outs, false).
Proof. exact write_stops. Qed.
Example C208_stops_ex : write [[L MAbs; Dg 1; Sp; Dg 2]; [L MAbs; Dg 5; Comma; Minus; Dg 2]; [L MAbs; Dg 1; Sp; Dg 2]] =
  ([[{| isf := false; val := 1 |}; {| isf := false; val := 2 |}]], false).
Proof.
  apply (C208_stops [[L MAbs; Dg 1; Sp; Dg 2]] _ [L MAbs; Dg 5; Comma; Minus; Dg 2] [[L MAbs; Dg 1; Sp; Dg 2]]).
  - constructor; [reflexivity|constructor].
  - intros o. rewrite C208_minus_ex. discriminate.
Qed.
Print Assumptions C208_stops.

(* entry i of the file holds the points of path i, and unless all paths are written the next one cannot be read *)
Theorem C208_written : forall l w ok, write l = (w, ok) ->
  Forall2 (fun s o => path s = Ok o) (firstn (length w) l) w /\
  (ok = true -> length w = length l) /\
  (ok = false -> exists s, nth_error l (length w) = Some s /\ forall o, path s <> Ok o).
Proof. exact write_sound. Qed.
Example C208_written_ex : exists o, path [L MAbs; Dg 1; Sp; Dg 2] = Ok o.
Proof.
  destruct (C208_written [[L MAbs; Dg 1; Sp; Dg 2]] _ _ eq_refl) as (A & _). inversion A; subst. eauto.
Qed.
Print Assumptions C208_written.

(* the paths are those of the first of the figure, its first group and the first group of that one that holds a path *)
Theorem C209_search : forall t, search t = match find has_paths (firsts 2 t) with Some u => paths_of u | None => [] end.
Proof. exact search_first. Qed.
Example C209_search_ex : search (Node [] [Node [] [Node [[Dg 1]; [Dg 2]] []]; Node [[Dg 3]] []]) = [[Dg 1]; [Dg 2]].
Proof. rewrite C209_search. reflexivity. Qed.
Print Assumptions C209_search.

(* every path that is read is one of the figure *)
Theorem C209_inside : forall t s, In s (search t) -> in_tree s t.
Proof. exact search_in. Qed.
Example C209_inside_ex : in_tree [Dg 1] (Node [] [Node [[Dg 1]] []]).
Proof. apply C209_inside. left. reflexivity. Qed.
Print Assumptions C209_inside.

(* a path of a second group is not found *)
Theorem C209_groups_refuted : exists t s, in_tree s t /\ search t = [] /\ exists p, path s = Ok p.
Proof. exact second_group_refuted. Qed.
Print Assumptions C209_groups_refuted.
