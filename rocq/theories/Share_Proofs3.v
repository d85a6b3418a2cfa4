(** What the transformed splines mean; groups of updaters; prediction. *)
From Coq Require Import Reals QArith ZArith String List Bool Arith Lia Lra Permutation.
From Verif Require Import Spline_Model Spline_Spec Splop_Model Splop_Spec Shift_Model Shift_Spec Shift_Proofs Shift_Proofs2 Shift_Proofs5 Shift_Proofs8 Shift_Proofs9 Vehicle_Model
  Share_Model Share_Spec Share_Proofs Share_Proofs2.
From Verif Require Timing_Model.
Import ListNotations.
Local Open Scope list_scope.
Local Open Scope nat_scope.
Local Notation length := List.length.

Lemma block_length : forall n j k (v : list R), j < k -> length v = k * n -> length (block n j v) = n.
Proof. intros n j k v H L. unfold block. rewrite firstn_length, skipn_length. nia. Qed.
Lemma blocks_eq : forall n k (v w : list R), length v = k * n -> length w = k * n -> (forall j, j < k -> block n j v = block n j w) -> v = w.
Proof.
  intros n k v w LV LW H. apply (nth_ext _ _ 0%R 0%R); [congruence|]. intros i Hi.
  assert (n <> 0) by nia. specialize (H (i / n) ltac:(apply Nat.div_lt_upper_bound; nia)).
  apply (f_equal (fun l => nth (i mod n) l 0%R)) in H. pose proof (Nat.mod_upper_bound i n ltac:(assumption)).
  unfold block in H. rewrite !nth_first, !nth_skip in H by assumption.
  replace (i / n * n + i mod n) with i in H by (rewrite (Nat.div_mod i n) at 1 by assumption; lia). exact H.
Qed.
(** at a knot: the old splines one knot interval later *)
Theorem shared_over_knot : forall d K h tol k v w, (0 < h)%R -> 2 <= K -> 1 <= d -> d <= K -> (0 <= tol)%R -> k <= K + d -> length v = k * (K + d) ->
  transform_leaf (fun c => shift_over_knot tol c (equidistant d K h)) (K + d) (seq 0 (k * (K + d))) v = Some w ->
  forall j x, j < k -> (0 <= x <= INR (K - 1) * h)%R ->
  (Rabs (call (mkS (equidistant d K h) (block (K + d) j w)) x - call (mkS (equidistant d K h) (block (K + d) j v)) (x + h))
   <= tol * size_of (block (K + d) j v))%R.
Proof.
  intros d K h tol k v w Hh HK Hd HdK Ht Hk L E j x Hj Hx.
  pose proof (leaf_partial _ (K + d) k v w ltac:(lia) Hk L E j Hj) as T.
  destruct (shift_equidistant d K h Hh HK Hd HdK tol (block (K + d) j v) (block (K + d) j w) Ht (block_length _ _ _ _ Hj L) T) as (_ & C & _).
  exact (C x Hx).
Qed.
(** between the knots: the same functions on the rest of the horizon *)
Theorem shared_forward : forall b t k v, well_formed b -> in_first b t -> 0 < blen b -> k <= blen b -> length v = k * blen b ->
  exists w, transform_leaf (fun c => Some (shift_knot1_fwd c b t)) (blen b) (seq 0 (k * blen b)) v = Some w /\
  forall j x, j < k -> in_domain b x -> (t <= x)%R ->
  call (mkS (first_moved b t) (block (blen b) j w)) x = call (mkS b (block (blen b) j v)) x.
Proof.
  intros b t k v W F Hb Hk L.
  destruct (leaf_blocks (fun c => Some (shift_knot1_fwd c b t)) (fun c => shift_knot1_fwd c b t) (blen b) k v Hb Hk L) as (w & E & _ & B).
  { intros c _. split; [reflexivity|]. apply fwd_length. }
  exists w. split; [exact E|]. intros j x Hj Hx Ht. rewrite (B j Hj). apply fwd_call; auto. apply (block_length _ _ _ _ Hj L).
Qed.
(** there and back again *)
Theorem shared_back : forall b t k v w u, well_formed b -> in_first b t -> 0 < blen b -> k <= blen b -> length v = k * blen b ->
  transform_leaf (fun c => Some (shift_knot1_fwd c b t)) (blen b) (seq 0 (k * blen b)) v = Some w ->
  transform_leaf (fun c => shift_knot1_bwd c b t) (blen b) (seq 0 (k * blen b)) w = Some u -> u = v.
Proof.
  intros b t k v w u W F Hb Hk L E1 E2. pose proof (leaf_length _ _ _ _ _ E1) as L1. pose proof (leaf_length _ _ _ _ _ E2) as L2.
  assert (LW : length w = k * blen b) by congruence. assert (LU : length u = k * blen b) by congruence.
  apply (blocks_eq (blen b) k); auto. intros j Hj.
  pose proof (leaf_partial _ _ _ _ _ Hb Hk L E1 j Hj) as T1. pose proof (leaf_partial _ _ _ _ _ Hb Hk LW E2 j Hj) as T2.
  cbn beta in T1. injection T1 as T1. rewrite <- T1 in T2. exact (bwd_fwd b t _ _ W F (block_length _ _ _ _ Hj L) T2).
Qed.
(** a gap before a spline: other coefficients than its own are transformed *)
Theorem gap : exists tf n ind v v', (forall w, length w = n -> exists u, tf w = Some u /\ length u = n) /\ length ind = length v /\
  ind = [0; 2; 3; 4] /\ n = 2 /\ transform_leaf tf n ind v = Some v' /\
  firstn 2 (skipn 1 v') <> (match tf (firstn 2 (skipn 1 v)) with Some u => u | None => [] end) /\ firstn 2 (skipn 1 v') <> firstn 2 (skipn 1 v).
Proof.
  exists (fun w => Some (map (fun x => x + 10)%R w)), 2, [0; 2; 3; 4], [0; 1; 2; 3]%R, [0; 1; 2 + 10; 3 + 10]%R.
  split; [intros w L; eexists; split; [reflexivity|rewrite map_length; exact L]|].
  repeat split; try reflexivity; intros E; injection E; intros; lra.
Qed.
(** more splines than coefficients: the later ones are left as they are *)
Theorem too_many : exists tf n k v v', (forall w, length w = n -> exists u, tf w = Some u /\ length u = n) /\ length v = k * n /\ n = 2 /\ k = 3 /\
  transform_leaf tf n (seq 0 (k * n)) v = Some v' /\ tf (block n 2 v) <> Some (block n 2 v').
Proof.
  exists (fun w => Some (map (fun x => x + 10)%R w)), 2, 3, [0; 1; 2; 3; 4; 5]%R, [0 + 10; 1 + 10; 2 + 10; 3 + 10; 4; 5]%R.
  split; [intros w L; eexists; split; [reflexivity|rewrite map_length; exact L]|].
  repeat split; try reflexivity. intros E; injection E; intros; lra.
Qed.

(** ** groups *)
Section Groups.
Context {K : Type} (eqb : K -> K -> bool) (eqb_ok : forall a b, eqb a b = true <-> a = b) (key : nat -> K).
Definition filed (d : list (K * list nat)) : Prop :=
  NoDup (map fst d) /\ Forall (fun g => snd g <> [] /\ Forall (fun x => key x = fst g) (snd g)) d.
Lemma file_keys : forall k x d, (In k (map fst d) /\ map fst (file_under eqb k x d) = map fst d) \/
  (~ In k (map fst d) /\ map fst (file_under eqb k x d) = map fst d ++ [k]).
Proof.
  intros k x d. induction d as [|[j l] d IH]; [right; split; [intros []|reflexivity]|]. cbn [file_under]. destruct (eqb j k) eqn:E.
  - apply eqb_ok in E. subst j. left. cbn. auto.
  - assert (j <> k) by (intros ->; rewrite (proj2 (eqb_ok k k) eq_refl) in E; discriminate).
    cbn [map fst]. destruct IH as [(I & ->)|(I & ->)]; [left|right]; cbn; split; auto. intros [H'|H']; [congruence|auto].
Qed.
Lemma file_filed : forall x d, filed d -> filed (file_under eqb (key x) x d).
Proof.
  intros x d (N & F). split.
  - destruct (file_keys (key x) x d) as [(I & ->)|(I & ->)]; [exact N|]. apply (Permutation_NoDup (l := key x :: map fst d)).
    + apply Permutation_cons_append.
    + constructor; auto.
  - clear N. induction d as [|[j l] d IH]; cbn [file_under].
    + constructor; [|constructor]. split; [discriminate|]. constructor; [reflexivity|constructor].
    + inversion F as [|? ? (NE & A) F']; subst. destruct (eqb j (key x)) eqn:E.
      * constructor; [|exact F']. cbn in *. split; [destruct l; discriminate|]. apply Forall_app. split; [exact A|].
        constructor; [|constructor]. apply eqb_ok in E. congruence.
      * constructor; [auto|]. apply IH. exact F'.
Qed.
Lemma file_members : forall k x d, Permutation (flat_map snd (file_under eqb k x d)) (flat_map snd d ++ [x]).
Proof.
  intros k x d. induction d as [|[j l] d IH]; cbn [file_under]; [reflexivity|]. destruct (eqb j k); cbn [flat_map snd].
  - rewrite <- !app_assoc. apply Permutation_app_head. apply Permutation_app_comm.
  - rewrite <- app_assoc. apply Permutation_app_head. exact IH.
Qed.
Lemma group_ok : forall l, filed (group eqb key l) /\ Permutation (flat_map snd (group eqb key l)) l.
Proof.
  intros l. unfold group.
  assert (G : forall l d, filed d -> filed (fold_left (fun d x => file_under eqb (key x) x d) l d) /\
    Permutation (flat_map snd (fold_left (fun d x => file_under eqb (key x) x d) l d)) (flat_map snd d ++ l)).
  { clear l. induction l as [|x l IH]; intros d F; cbn [fold_left]; [rewrite app_nil_r; auto|].
    destruct (IH _ (file_filed x d F)) as (A & B). split; [exact A|]. rewrite B.
    rewrite (file_members (key x) x d), <- app_assoc. reflexivity. }
  destruct (G l []) as (A & B); [split; constructor|]. auto.
Qed.
End Groups.
(** every updater is in exactly one group, with its like *)
Theorem builds_partition : forall kind nghbs N, Permutation (flat_map snd (builds kind nghbs N)) (seq 0 N).
Proof.
  intros kind nghbs N. unfold builds. eapply Permutation_trans; [|exact (proj2 (group_ok String.eqb String.eqb_eq kind (seq 0 N)))].
  generalize (group String.eqb kind (seq 0 N)) as gs. induction gs as [|[t vs] gs IH]; [reflexivity|].
  cbn [flat_map fst snd]. rewrite flat_map_app. apply Permutation_app; [|exact IH].
  eapply Permutation_trans; [|exact (proj2 (group_ok Nat.eqb Nat.eqb_eq nghbs vs))].
  generalize (group Nat.eqb nghbs vs) as hs. induction hs as [|[r us] hs IHh]; [reflexivity|]. cbn. apply Permutation_app_head. exact IHh.
Qed.
Theorem builds_alike : forall kind nghbs N t r us, In (t, r, us) (builds kind nghbs N) ->
  us <> [] /\ forall u, In u us -> kind u = t /\ nghbs u = r.
Proof.
  intros kind nghbs N t r us I. unfold builds in I. apply in_flat_map in I. destruct I as ([t' vs] & I1 & I2).
  apply in_map_iff in I2. destruct I2 as ([r' us'] & E & I2). cbn in E. injection E as -> -> ->.
  destruct (group_ok String.eqb String.eqb_eq kind (seq 0 N)) as ((_ & F1) & _). rewrite Forall_forall in F1. destruct (F1 _ I1) as (_ & A1).
  destruct (group_ok Nat.eqb Nat.eqb_eq nghbs vs) as ((_ & F2) & P2). rewrite Forall_forall in F2. destruct (F2 _ I2) as (NE & A2). cbn [fst snd] in *.
  split; [exact NE|]. intros u U. rewrite Forall_forall in A1, A2. split; [|apply A2; exact U]. apply A1.
  apply (Permutation_in u P2). apply in_flat_map. exists (r, us). auto.
Qed.
Lemma nodup_builds : forall kind nghbs N, NoDup (map fst (builds kind nghbs N)).
Proof.
  intros kind nghbs N. unfold builds. destruct (group_ok String.eqb String.eqb_eq kind (seq 0 N)) as ((N1 & _) & _).
  revert N1. generalize (group String.eqb kind (seq 0 N)) as gs. induction gs as [|[t vs] gs IH]; intros N1; [constructor|].
  inversion N1 as [|? ? NI N2]; subst. cbn [flat_map fst snd]. rewrite map_app, map_map. cbn [fst].
  assert (D : forall (a b : list (string * nat)), NoDup a -> NoDup b -> (forall x, In x a -> ~ In x b) -> NoDup (a ++ b)).
  { clear. induction a as [|x a IH]; intros b A B H; [exact B|]. inversion A; subst. cbn. constructor.
    - intros I. apply in_app_or in I. destruct I as [I|I]; [contradiction|]. apply (H x); [left; reflexivity|exact I].
    - apply IH; auto. intros y Y. apply H. right. exact Y. }
  apply D.
  - destruct (group_ok Nat.eqb Nat.eqb_eq nghbs vs) as ((N3 & _) & _). clear - N3. revert N3. generalize (group Nat.eqb nghbs vs) as hs.
    induction hs as [|[r us] hs IH]; intros N3; [constructor|]. inversion N3; subst. cbn. constructor; [|apply IH; assumption].
    intros I. apply in_map_iff in I. destruct I as ([r' us'] & E & I). cbn in E. injection E as <-. apply H1. apply in_map_iff. exists (r', us'). auto.
  - apply IH. exact N2.
  - intros [t' r] I1 I2. apply in_map_iff in I1. destruct I1 as ([r1 us1] & E1 & _). cbn in E1. injection E1 as <- <-.
    apply in_map_iff in I2. destruct I2 as ([[t2 r2] us2] & E2 & I2). cbn in E2. injection E2 as -> ->.
    apply in_flat_map in I2. destruct I2 as ([t3 vs3] & I3 & I4). apply in_map_iff in I4. destruct I4 as ([r4 us4] & E4 & _). cbn in E4. injection E4 as -> _ _.
    apply NI. apply in_map_iff. exists (t, vs3). auto.
Qed.
(** no two groups could be one *)
Theorem builds_distinct : forall kind nghbs N i j, i < j < length (builds kind nghbs N) ->
  fst (nth i (builds kind nghbs N) (EmptyString, 0, [])) <> fst (nth j (builds kind nghbs N) (EmptyString, 0, [])).
Proof.
  intros kind nghbs N i j H E. pose proof (nodup_builds kind nghbs N) as D. rewrite (NoDup_nth _ (EmptyString, 0)) in D.
  assert (i = j); [|lia]. apply D; rewrite ?map_length; try lia.
  rewrite !(map_nth fst (builds kind nghbs N) (EmptyString, 0, [])). exact E.
Qed.
(** every updater uses problems that were built for one of its kind *)
Theorem builder_alike : forall kind nghbs N u, u < N -> exists x, builder kind nghbs N u = Some x /\ x < N /\ kind x = kind u /\ nghbs x = nghbs u.
Proof.
  intros kind nghbs N u Hu. pose proof (builds_partition kind nghbs N) as P.
  assert (I : In u (flat_map snd (builds kind nghbs N))) by (apply (Permutation_in u (Permutation_sym P)); apply in_seq; lia).
  unfold builder. destruct (List.find _ _) as [[[t r] us]|] eqn:F.
  - apply find_some in F. destruct F as (I1 & E). cbn [snd] in E. apply existsb_exists in E. destruct E as (y & Iy & E). apply Nat.eqb_eq in E. subst y.
    destruct (builds_alike kind nghbs N t r us I1) as (NE & A). destruct us as [|x us]; [congruence|]. exists x. split; [reflexivity|].
    destruct (A x (or_introl eq_refl)). destruct (A u Iy). split; [|split; congruence].
    assert (In x (seq 0 N)). { apply (Permutation_in x P). apply in_flat_map. exists (t, r, x :: us). split; [exact I1|left; reflexivity]. }
    apply in_seq in H3. lia.
  - exfalso. apply in_flat_map in I. destruct I as (g & I1 & I2). pose proof (find_none _ _ F g I1) as X. cbn in X.
    assert (existsb (Nat.eqb u) (snd g) = true) by (apply existsb_exists; exists u; split; [exact I2|apply Nat.eqb_refl]). congruence.
Qed.

(** ** prediction *)
Theorem dist_arguments : forall (S I : Type) starts now (states : option (list (option S))) (inputs : option (list (option I))) delay es ei k s,
  nth_error starts k = Some s ->
  match states with
  | None => nth_error (dist_predict starts now states inputs delay es ei) k = Some (VArgs None (inr delay) 0 (Qeq_bool now s) false)
  | Some l => match nth_error l k with
              | Some x => nth_error (dist_predict starts now states inputs delay es ei) k = Some (VArgs x (inr delay) 0 (Qeq_bool now s) false)
              | None => nth_error (dist_predict starts now states inputs delay es ei) k = None
              end
  end.
Proof.
  intros S I starts now states inputs delay es ei k s E.
  assert (G : forall (l : list (option S)) x, nth_error l k = Some x -> nth_error (combine starts l) k = Some (s, x)).
  { revert starts E. induction k as [|k IH]; intros starts E l x EX; destruct starts as [|a starts]; try discriminate; destruct l as [|b l]; try discriminate; cbn in *.
    - congruence.
    - apply IH; assumption. }
  assert (P : forall (l : list (option S)) x, nth_error l k = Some x ->
    nth_error (map (fun p => predict_one (I := I) (fst p) now (snd p) (inr delay) 0 false false) (combine starts l)) k = Some (VArgs x (inr delay) 0 (Qeq_bool now s) false)).
  { intros l x EX. erewrite map_nth_error; [|apply G; exact EX]. unfold predict_one. cbn [fst snd]. destruct (Qeq_bool now s); reflexivity. }
  destruct states as [l|]; unfold dist_predict.
  - destruct (nth_error l k) as [x|] eqn:EX; [apply P; exact EX|]. apply nth_error_None. rewrite map_length, combine_length.
    apply nth_error_None in EX. lia.
  - apply P. assert (k < length starts) by (apply nth_error_Some; congruence). apply nth_error_repeat. assumption.
Qed.
Theorem dist_column : forall (S I : Type) starts now (states : option (list (option S))) (inputs : option (list (option I))) delay es ei p h a,
  In a (dist_predict starts now states inputs delay es ei) -> predicted_column p h a = Timing_Model.n_samp p h.
Proof.
  intros S I starts now states inputs delay es ei p h a H. unfold dist_predict in H. apply in_map_iff in H. destruct H as (x & <- & _).
  unfold predicted_column, predict_one. cbn [v_delay]. apply Z.add_0_r.
Qed.
(** the delay and the wish to enforce the state are lost *)
Theorem delay_lost : exists (starts : list Q) now (states : option (list (option nat))) delay p h,
  delay <> 0%Z /\ forall a, In a (dist_predict (I := nat) starts now states None delay true false) ->
  predicted_column p h a <> predicted_column p h (predict_one (I := nat) 0 now (v_state a) (inl None) delay true false) /\ v_enforce_state a = false.
Proof.
  exists [0%Q], 1%Q, (Some [Some 7]), 2%Z, 1%Q, 1%Q. split; [discriminate|]. intros a [<-|[]]. split; [vm_compute; discriminate|reflexivity].
Qed.
