(* Theorems about optilayer.py: C11 - C14, C60 - C62. *)
Require Import List String Ascii ZArith Bool Arith Lia FinFun.
Require Import Verif.Opti_Model Verif.Opti_Spec Verif.Opti_Proofs Verif.Opti_Proofs2 Verif.Opti_Proofs3.
Import ListNotations.
Open Scope string_scope.

(* ---------- C11 ---------- *)
(* whatever was handed out before (labels), new labels differ from it and from
   each other *)
Theorem C11_unique : forall fuel labels reqs out,
  NoDup labels -> make_labels fuel labels reqs = Ok out ->
  NoDup (labels ++ out) /\ List.length out = List.length reqs.
Proof. intros. now apply (make_labels_nodup fuel reqs). Qed.
Example C11_unique_ex :
  NoDup ["vehicle0"] /\
  make_labels 9 ["vehicle0"] ["vehicle"; "obstacle"; "vehicle1"; "vehicle"; "p2p"; "vehicle007"; "vehicle007"] =
  Ok ["vehicle1"; "obstacle0"; "vehicle2"; "vehicle3"; "p2p0"; "vehicle007"; "vehicle8"].
Proof. split; [repeat constructor; simpl; tauto|vm_compute; reflexivity]. Qed.
Print Assumptions C11_unique.

(* every label is the requested stem followed by a number *)
Theorem C11_stem : forall fuel labels reqs out, make_labels fuel labels reqs = Ok out ->
  forall i r, nth_error reqs i = Some r ->
  exists l, nth_error out i = Some l /\ exists stem num num',
    r = stem ++ num /\ chars digit num /\ l = stem ++ num' /\ number_string num' /\
    (stem = "" \/ ends_in_letter stem).
Proof.
  intros fuel labels reqs out H i r Hi.
  destruct (make_labels_each fuel reqs labels out H i r Hi) as (l & A & _ & B). eauto.
Qed.
Example C11_stem_ex : exists out, make_labels 5 [] ["vehicle"; "vehicle"] = Ok out /\
  nth_error ["vehicle"; "vehicle"] 1 = Some "vehicle" /\ nth_error out 1 = Some "vehicle1".
Proof. eexists. split; [vm_compute; reflexivity|]. split; reflexivity. Qed.
Print Assumptions C11_stem.

(* the call returns exactly for requests made of a stem and an optional number *)
Theorem C11_returns_iff : forall labels r,
  (exists fuel x, make_label fuel labels r = Ok x) <-> sound_request r.
Proof.
  intros labels r. split.
  - intros (fuel & x & H). eapply make_label_needs_sound; eauto.
  - intro S. destruct (make_label_sound labels r S) as (l & R & _). eauto.
Qed.
Example C11_returns_ex : sound_request "vehicle" /\ sound_request "vehicle12" /\ sound_request "7".
Proof.
  assert (ends_in_letter "vehicle") as V.
  { exists "vehicl", "e"%char. split; [reflexivity|]. apply isalpha_spec. reflexivity. }
  repeat split.
  - exists "vehicle", "". repeat split; auto; try discriminate. apply chars_nil.
  - exists "vehicle", "12". repeat split; auto; try discriminate. now apply all_chars_spec.
  - exists "", "7". repeat split; auto; try discriminate. now apply all_chars_spec.
Qed.
Print Assumptions C11_returns_iff.

(* the number handed out is the requested one when it is free, otherwise the
   first free one above it (0 when the request has no number) *)
Theorem C11_first_free : forall labels r, sound_request r ->
  exists l, make_label (List.length labels + 3) labels r = Ok (l, (labels ++ [l])%list) /\
   exists stem num num', r = stem ++ num /\ chars digit num /\ (stem = "" \/ ends_in_letter stem) /\
     l = stem ++ num' /\ number_string num' /\
     ((l = r /\ num <> "") \/
      exists j v0, num' = py_str (v0 + j) /\
        (num = "" /\ v0 = 0 \/ num <> "" /\ In r labels /\ v0 = py_int num + 1) /\
        (forall i, i < j -> In (stem ++ py_str (v0 + i)) labels)).
Proof. exact make_label_sound. Qed.
Example C11_first_free_ex : sound_request "veh" /\
  make_label 6 ["veh0"; "veh1"; "veh3"] "veh" = Ok ("veh2", ["veh0"; "veh1"; "veh3"; "veh2"]).
Proof.
  split; [|vm_compute; reflexivity]. exists "veh", "". repeat split; try discriminate; [apply chars_nil|].
  right. exists "ve", "h"%char. split; [reflexivity|]. apply isalpha_spec. reflexivity.
Qed.
Print Assumptions C11_first_free.

(* a label such as "veh_" or "veh_0" makes the recursion endless, the empty
   label is an IndexError *)
Theorem C11_endless_refuted : exists r1 r2, r1 <> "" /\ r2 <> "" /\
  (forall fuel labels, make_label fuel labels r1 = Err RecursionError) /\
  (forall fuel labels, make_label fuel labels r2 = Err RecursionError) /\
  (forall fuel labels, make_label (S fuel) labels "" = Err IndexError).
Proof.
  assert (ends true "veh") as E by (exists "ve", "h"%char; split; reflexivity).
  assert (forall s, chars digit (String "_" s) -> False) as D.
  { intros s H. apply chars_cons in H as [H _]. unfold digit in H.
    change (nat_of_ascii "_"%char) with 95 in H. lia. }
  exists "veh_", "veh_0". split; [discriminate|]. split; [discriminate|]. split; [|split].
  - intros. apply (make_label_diverges labels fuel "veh" "_"); auto; try discriminate.
    + repeat constructor.
    + intro H. eapply D; eauto.
  - intros. apply (make_label_diverges labels fuel "veh" "_0"); auto; try discriminate.
    + repeat constructor.
    + intro H. eapply D; eauto.
  - reflexivity.
Qed.
Print Assumptions C11_endless_refuted.

(* children with the labels handed out do not replace each other in the father *)
Theorem C11_father_keeps_all : forall V fuel reqs out (cs : list (child V)),
  make_labels fuel [] reqs = Ok out -> map clabel cs = out -> members (father cs) = cs.
Proof.
  intros V fuel reqs out cs H <-. apply members_father.
  apply make_labels_nodup in H as [H _]; [exact H|constructor].
Qed.
Example C11_father_ex : let cs := [@new_child nat 0 "vehicle0"; new_child 1 "vehicle1"] in
  make_labels 9 [] ["vehicle"; "vehicle"] = Ok ["vehicle0"; "vehicle1"] /\
  map clabel cs = ["vehicle0"; "vehicle1"].
Proof. split; vm_compute; reflexivity. Qed.
Print Assumptions C11_father_keeps_all.

(* ---------- C12 ---------- *)
Theorem C12_skip : forall A (coeffs : list A) a b,
  (0 <= a)%Z -> (0 <= b)%Z -> (a + b <= Z.of_nat (List.length coeffs))%Z -> (a, b) <> (0, 0)%Z ->
  keeps_range (Z.to_nat a) (Z.to_nat b) coeffs (skip_coeffs (Some (a, b)) coeffs).
Proof. intros; now apply skip_keeps. Qed.
Example C12_skip_ex : skip_coeffs (Some (1, 2))%Z [10; 11; 12; 13; 14] = [11; 12] /\
  skip_coeffs (Some (1, 0))%Z [10; 11; 12] = [11; 12] /\ skip_coeffs (Some (0, 1))%Z [10; 11; 12] = [10; 11].
Proof. repeat split. Qed.
Print Assumptions C12_skip.

Theorem C12_no_skip : forall A (coeffs : list A), skip_coeffs None coeffs = coeffs.
Proof. reflexivity. Qed.
Example C12_no_skip_ex : skip_coeffs None [10; 11; 12] = [10; 11; 12].
Proof. reflexivity. Qed.
Print Assumptions C12_no_skip.

(* skip=[0,0] asks for nothing to be left out, but leaves out everything *)
Theorem C12_zero_refuted : forall A (coeffs : list A), coeffs <> [] ->
  skip_coeffs (Some (0, 0)%Z) coeffs = [] /\ ~ keeps_range 0 0 coeffs (skip_coeffs (Some (0, 0)%Z) coeffs).
Proof.
  intros A coeffs H.
  assert (skip_coeffs (Some (0, 0)%Z) coeffs = []) as E.
  { unfold skip_coeffs, py_slice, py_clip. simpl. now rewrite Z.min_l by lia. }
  split; [exact E|]. rewrite E. intros [L _]. simpl in L. destruct coeffs; simpl in L; congruence.
Qed.
Example C12_zero_ex : skip_coeffs (Some (0, 0)%Z) [1; 2; 3] = [].
Proof. reflexivity. Qed.
Print Assumptions C12_zero_refuted.

(* with a skip pair, the number of rows no longer matches the length of the
   basis that is stored for the transformation of the dual variables *)
Theorem C12_dual_basis_refuted : exists c : ccall nat nat, usable_skip c /\
  exists n k d, s_cons (run_call cinit c) = [(n, k)] /\ s_dual (run_call cinit c) = [(n, d)] /\
    List.length (k_rows k) <> d.
Proof.
  exists (mkCall (CSpline [1; 2; 3]) 0 0 None None (Some (1, 0)%Z)). split.
  - unfold usable_skip; cbn [a_expr a_skip List.length].
    split; [lia|]. split; [lia|]. split; [lia|discriminate].
  - eexists _, _, _. split; [vm_compute; reflexivity|]. split; [vm_compute; reflexivity|]. discriminate.
Qed.
Print Assumptions C12_dual_basis_refuted.

(* ---------- C13 ---------- *)
(* For every declared parameter the solver gets the value that some child gives
   for it, otherwise the value held by its owner, and nothing else. *)
Theorem C13_delivered : forall V (offers : child V -> offers_t V) cs,
  (forall c, In c cs -> built c) -> (forall c, In c cs -> proper_offers (offers c)) ->
  NoDup (map clabel cs) -> ~ given_twice offers cs ->
  exists out, set_parameters offers cs = Ok out /\ NoDup (map fst out) /\
    (forall l n, In (l, n) (map fst out) <-> exists c, In c cs /\ clabel c = l /\ In n (cpars c)) /\
    (forall c n v, In c cs -> In n (cpars c) ->
       (In ((clabel c, n), v) out <->
         (exists d, In d cs /\ gives offers d (cid c) n v) \/
         ((forall d w, In d cs -> ~ gives offers d (cid c) n w) /\
          dget String.eqb n (cvalues c) = Some v))).
Proof. intros. now apply set_parameters_spec. Qed.

Definition pex1 : child nat := run_ops [Define KPar "x0" 1; Define KVar "T" 5; SetValue "x0" 2; Define KPar "p" 9]
  (new_child 0 "vehicle0").
Definition pex2 : child nat := run_ops [Define KPar "x0" 3; Define KSym "T" 0] (new_child 1 "obstacle0").
Definition oex (c : child nat) : offers_t nat :=
  if Nat.eqb (cid c) 0 then [(0, [("p", 42); ("nope", 7)])] else [(1, [("x0", 33)]); (5, [("x0", 1)])].
Lemma pex_built : forall c, In c [pex1; pex2] -> built c.
Proof.
  intros c [<-|[<-|[]]].
  - exists [Define KPar "x0" 1; Define KVar "T" 5; SetValue "x0" 2; Define KPar "p" 9]. reflexivity.
  - exists [Define KPar "x0" 3; Define KSym "T" 0]. reflexivity.
Qed.
Example C13_delivered_ex :
  (forall c, In c [pex1; pex2] -> built c) /\ (forall c, In c [pex1; pex2] -> proper_offers (oex c)) /\
  NoDup (map clabel [pex1; pex2]) /\ ~ given_twice oex [pex1; pex2] /\
  set_parameters oex [pex1; pex2] =
   Ok [(("vehicle0", "x0"), 2); (("vehicle0", "p"), 42); (("obstacle0", "x0"), 33)].
Proof.
  split; [exact pex_built|]. split; [|split; [|split]].
  - assert (forall l : list string, (if list_eq_dec string_dec (nodup string_dec l) l then true else false) = true -> NoDup l) as ND.
    { intros l H. destruct (list_eq_dec string_dec (nodup string_dec l) l) as [E|]; [|discriminate].
      rewrite <- E. apply NoDup_nodup. }
    intros c [<-|[<-|[]]]; split.
    + repeat constructor; simpl; tauto.
    + intros id dic [H|[]]. inversion H; subst. apply ND. reflexivity.
    + repeat constructor; simpl; intuition lia.
    + intros id dic [H|[H|[]]]; inversion H; subst; apply ND; reflexivity.
  - repeat constructor; simpl; intuition congruence.
  - intros (l1 & d1 & l2 & d2 & l3 & id & n & v1 & v2 & E & (e1 & A1 & B1) & (e2 & A2 & B2)).
    assert (d1 = pex1 /\ d2 = pex2) as [-> ->].
    { destruct l1 as [|x l1]; simpl in E; inversion E; subst.
      - destruct l2 as [|y l2]; simpl in *; inversion H1; subst; [auto|]. destruct l2; discriminate.
      - destruct l1 as [|y l1]; simpl in *; inversion H1; subst.
        + destruct l2; discriminate.
        + destruct l1; discriminate. }
    simpl in A1, A2. destruct A1 as [A1|[]]. inversion A1; subst.
    destruct A2 as [A2|[A2|[]]]; inversion A2.
  - vm_compute. reflexivity.
Qed.
Print Assumptions C13_delivered.

(* two children giving the same parameter: the call is refused *)
Theorem C13_twice_refused : forall V (offers : child V -> offers_t V) cs,
  (forall c, In c cs -> built c) -> (forall c, In c cs -> proper_offers (offers c)) ->
  NoDup (map clabel cs) -> given_twice offers cs -> set_parameters offers cs = Err ValueTwice.
Proof. intros V offers cs A B C D. now apply (set_parameters_spec offers cs A B C). Qed.
Definition oex2 (c : child nat) : offers_t nat := [(0, [("p", 42)])].
Example C13_twice_ex : given_twice oex2 [pex1; pex2] /\ set_parameters oex2 [pex1; pex2] = Err ValueTwice.
Proof.
  split; [|vm_compute; reflexivity].
  exists [], pex1, [], pex2, [], 0, "p", 42, 42. split; [reflexivity|].
  split; exists [("p", 42)]; simpl; auto.
Qed.
Print Assumptions C13_twice_refused.

(* the value held by the owner is the last one given to it *)
Theorem C13_last_value : forall V (ops : list (op V)) id label n,
  dget String.eqb n (cvalues (run_ops ops (new_child id label))) = last_given n ops.
Proof.
  intros. rewrite run_ops_values. simpl. now destruct (last_given n ops).
Qed.
Example C13_last_value_ex :
  last_given "x0" [Define KPar "x0" 1; Define KVar "T" 5; SetValue "x0" 2; Define KPar "p" 9] = Some 2.
Proof. reflexivity. Qed.
Print Assumptions C13_last_value.

(* ---------- C14 ---------- *)
Theorem C14_accepted_iff : forall V (cs : list (child V)) d,
  (exists d', translate_symbols cs d = Ok d') <->
  (forall c n, In c cs -> In n (csyms c) -> exists o, sole_owner cs n o).
Proof.
  intros V cs d. unfold translate_symbols. rewrite translate_ok_iff. split.
  - intros H c n Hc Hn. apply (H c n). apply in_symbol_pairs. auto.
  - intros H c n Hin. apply in_symbol_pairs in Hin as [? ?]. eauto.
Qed.
Example C14_accepted_ex : sole_owner [pex1; pex2] "T" pex1 /\ In "T" (csyms pex2).
Proof.
  split; [|simpl; auto]. exists [], [pex2]. split; [reflexivity|]. split; [left; simpl; auto|].
  intros c [[]|[<-|[]]] [H|H]; simpl in H; intuition congruence.
Qed.
Print Assumptions C14_accepted_iff.

Theorem C14_refusal : forall V (cs : list (child V)) d e, translate_symbols cs d = Err e ->
  exists c n, In c cs /\ In n (csyms c) /\
   ((e = ValueMultiple /\ two_owners cs n) \/
    (e = ValueUndefined /\ forall c', In c' cs -> ~ declares n c')).
Proof.
  intros V cs d e H. apply translate_error in H as (c & n & Hin & A).
  apply in_symbol_pairs in Hin as [? ?]. exists c, n. auto.
Qed.
Example C14_refusal_ex : translate_symbols [pex2] [] = Err ValueUndefined /\
  translate_symbols [pex1; pex2; run_ops [Define KPar "T" 0] (new_child 2 "problem0")] [] = Err ValueMultiple.
Proof. split; vm_compute; reflexivity. Qed.
Print Assumptions C14_refusal.

(* ---------- C60 ---------- *)
(* In a family with different labels free of underscores every symbol of every
   child is replaced with the entry of the problem it stands for: the child's
   own entry for a variable or parameter, the sole owner's for a shared symbol. *)
Theorem C60_binding : forall V (cs : list (child V)) d,
  NoDup (map clabel cs) -> NoDup (map cid cs) ->
  (forall c, In c cs -> built c /\ no_underscore (clabel c)) ->
  symbol_table cs = Ok d ->
  (forall c n, In c cs -> In n (cvars c) ->
     substitute_symbol cs d (n ++ "_" ++ clabel c) = Ok (TVar (clabel c) n)) /\
  (forall c n, In c cs -> In n (cpars c) -> ~ In n (cvars c) ->
     substitute_symbol cs d (n ++ "_" ++ clabel c) = Ok (TPar (clabel c) n)) /\
  (forall c n, In c cs -> In n (csyms c) -> exists o, sole_owner cs n o /\
     substitute_symbol cs d (n ++ "_" ++ clabel c) =
       Ok (if in_dec string_dec n (cvars o) then TVar (clabel o) n else TPar (clabel o) n)).
Proof.
  intros V cs d NL NI G H.
  destruct (binding cs d (conj NL (conj NI G)) H) as [B1 B2].
  assert (forall (o : child V) n, entry_of o n =
     if in_dec string_dec n (cvars o) then TVar (clabel o) n else TPar (clabel o) n) as EO.
  { intros o n. unfold entry_of. destruct (mem n (cvars o)) eqn:E.
    - apply mem_spec in E. destruct (in_dec string_dec n (cvars o)); tauto.
    - apply mem_false in E. destruct (in_dec string_dec n (cvars o)); tauto. }
  split; [|split].
  - intros c n Hc Hn. specialize (B1 c n Hc (or_introl Hn)). unfold add_label in B1. rewrite B1, EO.
    destruct (in_dec string_dec n (cvars c)); tauto.
  - intros c n Hc Hn Hv. specialize (B1 c n Hc (or_intror Hn)). unfold add_label in B1. rewrite B1, EO.
    destruct (in_dec string_dec n (cvars c)); tauto.
  - intros c n Hc Hn. destruct (B2 c n Hc Hn) as (o & Ho & E). exists o. split; [trivial|].
    unfold add_label in E. now rewrite E, EO.
Qed.
Example C60_binding_ex : NoDup (map clabel [pex1; pex2]) /\ NoDup (map cid [pex1; pex2]) /\
  (forall c, In c [pex1; pex2] -> built c /\ no_underscore (clabel c)) /\
  exists d, symbol_table [pex1; pex2] = Ok d /\
    substitute_symbol [pex1; pex2] d "T_obstacle0" = Ok (TVar "vehicle0" "T").
Proof.
  split; [repeat constructor; simpl; intuition congruence|].
  split; [repeat constructor; simpl; intuition congruence|]. split.
  - intros c Hc. split; [now apply pex_built|].
    destruct Hc as [<-|[<-|[]]]; repeat constructor; discriminate.
  - eexists. split; vm_compute; reflexivity.
Qed.
Print Assumptions C60_binding.

(* with an underscore in a label, a variable of one object can be taken for a
   variable of another object *)
Theorem C60_underscore_refuted : exists (c1 c2 : child nat) d,
  make_labels 9 [] ["b"; "a_b"] = Ok [clabel c1; clabel c2] /\ built c1 /\ built c2 /\
  cid c1 <> cid c2 /\ symbol_table [c1; c2] = Ok d /\ In "x_a" (cvars c1) /\
  substitute_symbol [c1; c2] d ("x_a" ++ "_" ++ clabel c1) = Ok (TVar (clabel c2) "x").
Proof.
  exists (run_ops [Define KVar "x_a" 0] (new_child 0 "b0")), (run_ops [Define KVar "x" 0] (new_child 1 "a_b0")).
  eexists. split; [vm_compute; reflexivity|].
  split; [exists [Define KVar "x_a" 0]; reflexivity|].
  split; [exists [Define KVar "x" 0]; reflexivity|].
  split; [discriminate|]. split; [vm_compute; reflexivity|]. split; [simpl; auto|]. vm_compute. reflexivity.
Qed.
Print Assumptions C60_underscore_refuted.

(* ---------- C61 ---------- *)
(* every constraint that was defined is kept, in order, with its own rows,
   bounds and shutdown condition; n_cons counts the rows *)
Theorem C61_constraints_kept : forall A B (cs : list (ccall A B)),
  (forall c, In c cs -> usable_skip c) ->
  let s := run_calls cs cinit in
  NoDup (map fst (s_cons s)) /\
  Forall2 records_call (filter (fun c => negb (is_number c)) cs) (s_cons s) /\
  s_ncons s = total_rows (s_cons s).
Proof. intros A B cs H. exact (constraints_kept cs H). Qed.
Definition cex : list (ccall nat Z) :=
  [mkCall (CSpline [1; 2; 3]) 0%Z 1%Z None None (Some (1, 0)%Z); mkCall CNum 0%Z 1%Z None None None;
   mkCall (CMX [7]) 5%Z 5%Z (Some "t>2") (Some "end") None].
Example C61_kept_ex : (forall c, In c cex -> usable_skip c) /\
  s_cons (run_calls cex cinit) =
   [("c_0", mkConstr [2; 3] [0%Z; 0%Z] [1%Z; 1%Z] None); ("end_1", mkConstr [7] [5%Z] [5%Z] (Some "t>2"))].
Proof.
  split; [|vm_compute; reflexivity]. intros c [<-|[<-|[<-|[]]]]; try exact I.
  unfold usable_skip; cbn [a_expr a_skip List.length].
  split; [lia|]. split; [lia|]. split; [lia|discriminate].
Qed.
Print Assumptions C61_constraints_kept.

(* the problem holds every constraint of every child exactly once *)
Theorem C61_problem_complete : forall A B (fam : list (string * dict string (constr A B))),
  NoDup (map fst fam) ->
  (forall l ks, In (l, ks) fam -> no_underscore l /\ NoDup (map fst ks)) ->
  construct_constraints fam =
    flat_map (fun lc => map (fun nk => (fst nk ++ "_" ++ fst lc, snd nk)) (snd lc)) fam /\
  NoDup (map fst (construct_constraints fam)).
Proof. intros A B fam N H. exact (construct_all fam N H). Qed.
Example C61_complete_ex :
  let fam := [("vehicle0", s_cons (run_calls cex cinit)); ("p2p0", s_cons (run_calls cex cinit))] in
  NoDup (map fst fam) /\ (forall l ks, In (l, ks) fam -> no_underscore l /\ NoDup (map fst ks)) /\
  List.length (construct_constraints fam) = 4.
Proof.
  split; [repeat constructor; simpl; intuition congruence|]. split; [|vm_compute; reflexivity].
  intros l ks [E|[E|[]]]; inversion E; subst; (split; [repeat constructor; discriminate|]);
    apply (constraints_kept cex); apply C61_kept_ex.
Qed.
Print Assumptions C61_problem_complete.

(* with an underscore in a label, the constraint of one child replaces the
   constraint of another *)
Theorem C61_lost_refuted : exists fam : list (string * dict string (constr nat Z)),
  NoDup (map fst fam) /\ (forall l ks, In (l, ks) fam -> NoDup (map fst ks)) /\
  exists l n k, In (l, [(n, k)]) fam /\ ~ In k (map snd (construct_constraints fam)).
Proof.
  exists [("0_a0", [("end_0", mkConstr [1] [0%Z] [0%Z] None)]); ("a0", [("end_0_0", mkConstr [2] [0%Z] [0%Z] None)])].
  split; [repeat constructor; simpl; intuition congruence|]. split.
  - intros l ks [E|[E|[]]]; inversion E; subst; repeat constructor; simpl; tauto.
  - exists "0_a0", "end_0", (mkConstr [1] [0%Z] [0%Z] None). split; [simpl; auto|].
    vm_compute. intros [E|[]]. discriminate.
Qed.
Print Assumptions C61_lost_refuted.

(* reset does not reset n_cons: afterwards it no longer counts the rows *)
Theorem C61_count_after_reset_refuted : exists cs : list (ccall nat Z),
  (forall c, In c cs -> usable_skip c) /\
  let s := run_calls cs (creset (run_calls cs cinit)) in s_ncons s <> total_rows (s_cons s).
Proof.
  exists cex. split; [apply C61_kept_ex|]. vm_compute. discriminate.
Qed.
Print Assumptions C61_count_after_reset_refuted.

(* ---------- C62 ---------- *)
(* where exec binds the name (Python 2): exactly the constraints whose shutdown
   condition holds are opened, all others keep their bounds *)
Theorem C62_shutdown : forall A B holds (minf pinf : B) (d : dict string (constr A B)),
  NoDup (map fst d) ->
  exists bs, update_bounds true holds minf pinf d = Ok bs /\ map fst bs = map fst d /\
   forall n k, In (n, k) d ->
     ((exists cond, k_shut k = Some cond /\ holds cond = true) ->
        In (n, (repeat minf (List.length (k_lb k)), repeat pinf (List.length (k_ub k)))) bs) /\
     (~ (exists cond, k_shut k = Some cond /\ holds cond = true) ->
        In (n, (k_lb k, k_ub k)) bs).
Proof. intros. now apply bounds_spec. Qed.
Example C62_shutdown_ex :
  update_bounds true (fun c => String.eqb c "t>2") (-99)%Z 99%Z (s_cons (run_calls cex cinit)) =
   Ok [("c_0", ([0%Z; 0%Z], [1%Z; 1%Z])); ("end_1", ([(-99)%Z], [99%Z]))].
Proof. vm_compute. reflexivity. Qed.
Print Assumptions C62_shutdown.

(* in Python 3 exec does not create the local name: any problem with a shutdown
   condition fails with a NameError *)
Theorem C62_python3_refuted : forall A B holds (minf pinf : B) (d : dict string (constr A B)),
  (exists n k cond, In (n, k) d /\ k_shut k = Some cond) ->
  update_bounds false holds minf pinf d = Err NameError.
Proof.
  intros A B holds minf pinf d (n & k & cond & Hin & E). unfold update_bounds.
  replace (existsb _ d) with true; [reflexivity|]. symmetry. apply existsb_exists.
  exists (n, k). split; [trivial|]. simpl. now rewrite E.
Qed.
Example C62_python3_ex : In ("end_1", mkConstr [7] [5%Z] [5%Z] (Some "t>2")) (s_cons (run_calls cex cinit)).
Proof. vm_compute. auto. Qed.
Print Assumptions C62_python3_refuted.
