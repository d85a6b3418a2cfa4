(* Proofs about constraints. *)
Require Import List String Ascii ZArith Bool Arith Lia FinFun.
Require Import Verif.Opti_Model Verif.Opti_Spec Verif.Opti_Proofs Verif.Opti_Proofs2.
Import ListNotations.
Open Scope string_scope.

Lemma nth_error_firstn_skipn {A} (l : list A) a n i : i < n ->
  nth_error (firstn n (skipn a l)) i = nth_error l (a + i).
Proof.
  revert l. induction a as [|a IH]; intros l H.
  - change (skipn 0 l) with l. simpl. revert l i H. induction n as [|n IHn]; intros l i H; [lia|].
    destruct l as [|x l]; [destruct i; reflexivity|]. destruct i; simpl; [trivial|]. apply IHn. lia.
  - destruct l as [|x l]; [rewrite skipn_nil, firstn_nil; destruct i; reflexivity|]. simpl. auto.
Qed.

Lemma range_keeps {A} (l : list A) a b :
  keeps_range a b l (firstn (List.length l - b - a) (skipn a l)).
Proof.
  split.
  - rewrite firstn_length, skipn_length. lia.
  - intros i Hi. apply nth_error_firstn_skipn. rewrite firstn_length in Hi. lia.
Qed.

Lemma skip_keeps {A} (l : list A) a b :
  (0 <= a)%Z -> (0 <= b)%Z -> (a + b <= Z.of_nat (List.length l))%Z -> (a, b) <> (0, 0)%Z ->
  keeps_range (Z.to_nat a) (Z.to_nat b) l (skip_coeffs (Some (a, b)) l).
Proof.
  intros Ha Hb Hl Hn. unfold skip_coeffs.
  destruct (Z.eqb_spec a 0) as [->|Na].
  - assert (b <> 0)%Z by congruence. unfold py_slice, py_clip.
    replace (- b <? 0)%Z with true by (symmetry; apply Z.ltb_lt; lia).
    rewrite Z.max_r, Z.min_l by lia.
    replace (Z.to_nat (- b + Z.of_nat (List.length l)) - Z.to_nat 0)
      with (List.length l - Z.to_nat b - Z.to_nat 0) by lia.
    apply range_keeps.
  - destruct (Z.eqb_spec b 0) as [->|Nb]; unfold py_slice, py_clip.
    + replace (a <? 0)%Z with false by (symmetry; apply Z.ltb_ge; lia).
      rewrite Z.max_r, Z.min_l by lia.
      replace (Z.to_nat (Z.of_nat (List.length l)) - Z.to_nat a)
        with (List.length l - Z.to_nat 0 - Z.to_nat a) by lia.
      apply range_keeps.
    + replace (a <? 0)%Z with false by (symmetry; apply Z.ltb_ge; lia).
      replace (- b <? 0)%Z with true by (symmetry; apply Z.ltb_lt; lia).
      rewrite !Z.max_r, !Z.min_l by lia.
      replace (Z.to_nat (- b + Z.of_nat (List.length l)) - Z.to_nat a)
        with (List.length l - Z.to_nat b - Z.to_nat a) by lia.
      apply range_keeps.
Qed.

Lemma nodup_app_l {X} (l1 l2 : list X) : NoDup (l1 ++ l2) -> NoDup l1.
Proof.
  induction l1 as [|x l1 IH]; simpl; intro N; [constructor|]. inversion N; subst.
  constructor; [|auto]. intro H. apply H1. rewrite in_app_iff. auto.
Qed.

Section Cons.
Context {A B : Type}.
Implicit Types (c : ccall A B) (s : cstate A B).

Definition call_base c : string := match a_name c with None => "c" | Some n => n end.
Definition call_key c k : string := add_label (call_base c) (py_str k).
Definition call_rows c : list A :=
  match a_expr c with CNum => [] | CMX es => es | CSpline co => skip_coeffs (a_skip c) co end.
Definition call_constr c : constr A B :=
  mkConstr (call_rows c) (repeat (a_lb c) (List.length (call_rows c)))
    (repeat (a_ub c) (List.length (call_rows c))) (a_shut c).

Lemma run_call_cons c s : is_number c = false ->
  s_cons (run_call s c) = dset String.eqb (call_key c (s_cnt s)) (call_constr c) (s_cons s) /\
  s_cnt (run_call s c) = S (s_cnt s) /\
  s_ncons (run_call s c) = s_ncons s + List.length (call_rows c).
Proof.
  unfold is_number, run_call, define_constraint, call_key, add_label, call_base, call_constr, call_rows.
  destruct (a_expr c); [discriminate|intros _..]; destruct (a_name c); simpl; auto.
Qed.
Lemma run_call_number c s : is_number c = true -> run_call s c = s.
Proof. unfold is_number, run_call, define_constraint. now destruct (a_expr c). Qed.

Definition keys_below s := forall k, In k (map fst (s_cons s)) ->
  exists b j, k = add_label b (py_str j) /\ j < s_cnt s.

Lemma py_str_no_us n : no_underscore (py_str n).
Proof.
  destruct (py_str_number n) as [_ H]. unfold no_underscore, chars in *.
  eapply Forall_impl; [|exact H]. intros c Hc ->. unfold digit in Hc.
  change (nat_of_ascii "_"%char) with 95 in Hc. lia.
Qed.

Lemma fresh_key c s : keys_below s -> dget String.eqb (call_key c (s_cnt s)) (s_cons s) = None.
Proof.
  intro H. apply (dget_none _ s_ok). intro Hin. apply H in Hin as (b & j & E & Hj).
  unfold call_key in E. apply no_us_split in E as [_ E]; try apply py_str_no_us.
  apply py_str_inj in E. lia.
Qed.

Fixpoint entries k (cs : list (ccall A B)) : list (string * constr A B) :=
  match cs with
  | [] => []
  | c :: cs' => if is_number c then entries k cs'
                else (call_key c k, call_constr c) :: entries (S k) cs'
  end.

Lemma run_calls_entries cs : forall s, keys_below s ->
  s_cons (run_calls cs s) = (s_cons s ++ entries (s_cnt s) cs)%list /\
  s_ncons (run_calls cs s) = s_ncons s + total_rows (entries (s_cnt s) cs).
Proof.
  unfold run_calls. induction cs as [|c cs IH]; intros s H; simpl.
  - rewrite app_nil_r. auto.
  - destruct (is_number c) eqn:E.
    + rewrite run_call_number by assumption. auto.
    + destruct (run_call_cons c s E) as (R1 & R2 & R3).
      assert (keys_below (run_call s c)) as H'.
      { intros k Hk. rewrite R1, (dset_fresh _ _ _ _ (fresh_key c s H)), map_app, in_app_iff in Hk.
        rewrite R2. destruct Hk as [Hk|[<-|[]]].
        - apply H in Hk as (b & j & -> & Hj). exists b, j. auto.
        - exists (call_base c), (s_cnt s). auto. }
      destruct (IH _ H') as [I1 I2]. rewrite I1, I2, R2, R3, R1.
      rewrite (dset_fresh _ _ _ _ (fresh_key c s H)), <- app_assoc. simpl.
      split; [trivial|]. lia.
Qed.

Lemma entries_keys cs : forall k x, In x (map fst (entries k cs)) ->
  exists b j, x = add_label b (py_str j) /\ k <= j.
Proof.
  induction cs as [|c cs IH]; intros k x H; simpl in H; [tauto|].
  destruct (is_number c); [auto|]. destruct H as [<-|H].
  - exists (call_base c), k. auto.
  - apply IH in H as (b & j & -> & Hj). exists b, j. split; [trivial|lia].
Qed.
Lemma entries_nodup cs : forall k, NoDup (map fst (entries k cs)).
Proof.
  induction cs as [|c cs IH]; intro k; simpl; [constructor|].
  destruct (is_number c); [auto|]. constructor; [|auto].
  intro H. apply entries_keys in H as (b & j & E & Hj).
  apply no_us_split in E as [_ E]; try apply py_str_no_us. apply py_str_inj in E. lia.
Qed.
Lemma call_intended c : is_number c = false -> usable_skip c -> intended_rows c (call_rows c).
Proof.
  unfold is_number, usable_skip, intended_rows, call_rows.
  destruct (a_expr c) as [|co|es]; [discriminate| |reflexivity]. intros _.
  destruct (a_skip c) as [[a b]|]; [|reflexivity]. intros (H1 & H2 & H3 & H4).
  now apply skip_keeps.
Qed.
Lemma entries_record cs : forall k, (forall c, In c cs -> usable_skip c) ->
  Forall2 records_call (filter (fun c => negb (is_number c)) cs) (entries k cs).
Proof.
  induction cs as [|c cs IH]; intros k H; simpl; [constructor|].
  destruct (is_number c) eqn:E; simpl.
  - apply IH. intros; apply H; simpl; auto.
  - constructor; [|apply IH; intros; apply H; simpl; auto].
    repeat split. simpl. apply call_intended; [trivial|]. apply H; simpl; auto.
Qed.

Lemma keys_below_init : keys_below cinit.
Proof. intros k []. Qed.

Lemma constraints_kept (cs : list (ccall A B)) : (forall c, In c cs -> usable_skip c) ->
  let s := run_calls cs cinit in
  NoDup (map fst (s_cons s)) /\
  Forall2 records_call (filter (fun c => negb (is_number c)) cs) (s_cons s) /\
  s_ncons s = total_rows (s_cons s).
Proof.
  intros H s. destruct (run_calls_entries cs cinit keys_below_init) as [E1 E2].
  unfold s. rewrite E1, E2. simpl. split; [apply entries_nodup|]. split; [|reflexivity].
  now apply entries_record.
Qed.

(* ---------- construct_constraints ---------- *)
Implicit Types (d : dict string (constr A B)) (fam : list (string * dict string (constr A B))).

Lemma inner_fold l (ks : dict string (constr A B)) : forall d,
  NoDup (map fst d ++ map (fun nk => add_label (fst nk) l) ks) ->
  fold_left (fun d nk => dset String.eqb (add_label (fst nk) l) (snd nk) d) ks d =
  (d ++ map (fun nk => (add_label (fst nk) l, snd nk)) ks)%list.
Proof.
  induction ks as [|[n k] ks IH]; intros d N; simpl in *; [now rewrite app_nil_r|].
  rewrite dset_fresh.
  - rewrite IH; [now rewrite <- app_assoc|]. rewrite map_app, <- app_assoc. exact N.
  - apply (dget_none _ s_ok). apply NoDup_remove_2 in N. rewrite in_app_iff in N. tauto.
Qed.

Definition flat fam : dict string (constr A B) :=
  flat_map (fun lc => map (fun nk => (add_label (fst nk) (fst lc), snd nk)) (snd lc)) fam.

Lemma outer_fold fam : forall d,
  NoDup (map fst d ++ map fst (flat fam)) ->
  fold_left (fun d lc =>
    fold_left (fun d nk => dset String.eqb (add_label (fst nk) (fst lc)) (snd nk) d) (snd lc) d) fam d =
  (d ++ flat fam)%list.
Proof.
  unfold flat. induction fam as [|[l ks] fam IH]; intros d N; simpl in *; [now rewrite app_nil_r|].
  rewrite map_app, map_map in N. simpl in N.
  rewrite inner_fold.
  - rewrite IH; [now rewrite <- app_assoc|]. rewrite map_app, map_map, <- app_assoc. simpl. exact N.
  - rewrite app_assoc in N. apply nodup_app_l in N. exact N.
Qed.

Lemma flat_nodup fam : NoDup (map fst fam) -> (forall l ks, In (l, ks) fam -> no_underscore l /\ NoDup (map fst ks)) ->
  NoDup (map fst (flat fam)).
Proof.
  induction fam as [|[l ks] fam IH]; intros N H; simpl; [constructor|].
  rewrite map_app, map_map. simpl in *. inversion N; subst.
  assert (forall X (l1 l2 : list X), NoDup l1 -> NoDup l2 -> (forall x, In x l1 -> In x l2 -> False) ->
     NoDup (l1 ++ l2)) as DJ.
  { clear. induction l1 as [|x l1 IH]; simpl; intros l2 A1 A2 D; [trivial|]. inversion A1; subst.
    constructor; [rewrite in_app_iff; intros [?|?]; [tauto|eapply D; eauto]|].
    apply IH; auto. intros y ? ?. eapply D; eauto. }
  destruct (H l ks) as [U K]; [auto|].
  apply DJ.
  - rewrite <- (map_map fst (fun n => add_label n l)). apply Injective_map_NoDup; [|trivial].
    intros a b. apply add_label_inj.
  - apply IH; [trivial|]. intros; apply H; auto.
  - intros x Hx Hy. apply in_map_iff in Hx as ([n k] & <- & Hx).
    apply in_map_iff in Hy as ([y k'] & E & Hy). simpl in E. subst y.
    unfold flat in Hy. apply in_flat_map in Hy as ([l' ks'] & Hl' & Hy).
    apply in_map_iff in Hy as ([n' k''] & E & _). simpl in E. injection E as E _.
    apply no_us_split in E as [_ ->]; [|apply (H l' ks'); auto|trivial].
    apply H2. change l with (fst (l, ks')). now apply in_map.
Qed.

Lemma construct_all fam : NoDup (map fst fam) ->
  (forall l ks, In (l, ks) fam -> no_underscore l /\ NoDup (map fst ks)) ->
  construct_constraints fam =
    flat_map (fun lc => map (fun nk => (fst nk ++ "_" ++ fst lc, snd nk)) (snd lc)) fam /\
  NoDup (map fst (construct_constraints fam)).
Proof.
  intros N H. pose proof (flat_nodup fam N H) as F. unfold construct_constraints.
  rewrite outer_fold by exact F. split; [reflexivity|exact F].
Qed.

(* ---------- update_bounds ---------- *)
Lemma bounds_spec holds (minf pinf : B) d : NoDup (map fst d) ->
  exists bs, update_bounds true holds minf pinf d = Ok bs /\ map fst bs = map fst d /\
   forall n k, In (n, k) d ->
     ((exists cond, k_shut k = Some cond /\ holds cond = true) ->
        In (n, (repeat minf (List.length (k_lb k)), repeat pinf (List.length (k_ub k)))) bs) /\
     (~ (exists cond, k_shut k = Some cond /\ holds cond = true) ->
        In (n, (k_lb k, k_ub k)) bs).
Proof.
  intro N. unfold update_bounds. rewrite andb_false_r. eexists. split; [reflexivity|].
  split; [rewrite map_map; reflexivity|]. intros n k Hin.
  assert (forall (x : B) (l : list B), map (fun _ => x) l = repeat x (List.length l)) as MR
    by (intros x l; induction l; simpl; congruence).
  split.
  - intros (cond & E & Hc). apply in_map_iff. exists (n, k). split; [|trivial]. simpl.
    now rewrite E, Hc, !MR.
  - intro Hno. apply in_map_iff. exists (n, k). split; [|trivial]. simpl.
    destruct (k_shut k) as [cond|]; [|trivial]. destruct (holds cond) eqn:Hc; [|trivial].
    exfalso. apply Hno. eauto.
Qed.
End Cons.
