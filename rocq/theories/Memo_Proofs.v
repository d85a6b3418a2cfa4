(** What a simulation keeps; fleets. *)
From Coq Require Import QArith ZArith List Bool Arith Lia Lqa.
From Verif Require Import Memo_Model Memo_Spec.
From Verif Require Grid_Model Timing_Model Timing_Proofs.
Import ListNotations.
Local Open Scope nat_scope.

Lemma const_map : forall {A} (x : A) n, map (fun _ : nat => x) (seq 0 n) = repeat x n.
Proof.
  intros A x n. generalize 0. induction n as [|n IH]; intros k; [reflexivity|]. cbn. rewrite IH. reflexivity.
Qed.
Lemma cut_columns : forall p n k, k < n -> cut k (columns p n) = map (fun j => (p, S j)) (seq 0 k).
Proof.
  intros p n k L. unfold cut, columns. destruct n as [|n]; [lia|]. cbn [seq map skipn]. rewrite <- seq_shift, map_map.
  rewrite firstn_map. f_equal. replace n with (k + (n - k)) by lia. rewrite seq_app, firstn_app, seq_length.
  rewrite firstn_all2 by (rewrite seq_length; lia). replace (k - k) with 0 by lia. cbn. rewrite app_nil_r. reflexivity.
Qed.
Lemma samples_whole : forall ts t k, (0 < ts)%Q -> (t == inject_Z (Z.of_nat k) * ts)%Q ->
  Timing_Model.n_samp t ts = Z.of_nat k /\ Timing_Model.pint (t / ts) = Z.of_nat k.
Proof.
  intros ts t k P E. split; [apply Timing_Proofs.n_samp_whole; assumption|].
  apply Timing_Proofs.pint_eq. rewrite E. field. intros F. lra.
Qed.
(** one call of a whole number of samples *)
Lemma simulate_whole : forall ideal ts t p n k m, (0 < ts)%Q -> (t == inject_Z (Z.of_nat k) * ts)%Q -> k < n ->
  simulate true ideal ts t p n m =
  mkM (Some (begun (m_time m) p n ++ executed [(p, k)])) (Some (begun (m_state m) p n ++ executed [(p, k)])) (m_store m ++ repeat p k).
Proof.
  intros ideal ts t p n k m P E L. destruct (samples_whole ts t k P E) as [N1 N2].
  unfold simulate, integrated_columns. rewrite N1, N2, !Nat2Z.id. unfold add_to_memory. rewrite const_map.
  unfold executed. cbn [flat_map fst snd]. rewrite app_nil_r. rewrite cut_columns by exact L.
  destruct ideal; rewrite cut_columns by lia; reflexivity.
Qed.
Lemma begun_some : forall l p n, begun (Some l) p n = l. Proof. reflexivity. Qed.
Lemma executed_cons : forall p k ks, executed ((p, k) :: ks) = executed [(p, k)] ++ executed ks.
Proof. intros. unfold executed. cbn [flat_map]. rewrite app_nil_r. reflexivity. Qed.
Lemma session_going : forall ideal ts calls ks, (0 < ts)%Q -> whole_calls ts calls ks -> forall lt ls st,
  session true ideal ts calls (mkM (Some lt) (Some ls) st) =
  mkM (Some (lt ++ executed ks)) (Some (ls ++ executed ks)) (st ++ map fst (executed ks)).
Proof.
  intros ideal ts calls ks P W. induction W as [|p n t k calls ks E L W IH]; intros lt ls st; cbn [session].
  - cbn. rewrite !app_nil_r. reflexivity.
  - rewrite (simulate_whole ideal ts t p n k _ P E L). cbn [m_time m_state m_store]. rewrite !begun_some, IH.
    rewrite (executed_cons p k ks), map_app, <- !app_assoc. f_equal. f_equal. f_equal.
    unfold executed. cbn [flat_map fst snd]. rewrite app_nil_r, map_map. cbn. symmetry. apply const_map.
Qed.
(** the signals are the first column of the first plan and the executed samples;
    the stored plan of each sample is the one that it comes from *)
Theorem session_whole : forall ideal ts calls ks p n t, (0 < ts)%Q -> whole_calls ts ((p, n, t) :: calls) ks ->
  let m := session true ideal ts ((p, n, t) :: calls) no_memory in
  m_time m = Some ((p, 0) :: executed ks) /\ m_state m = m_time m /\ m_store m = map fst (executed ks).
Proof.
  intros ideal ts calls ks p n t P W. cbv zeta. inversion W as [|p' n' t' k calls' ks' E L W' E1 E2]. subst.
  cbn [session]. rewrite (simulate_whole ideal ts t p n k _ P E L).
  assert (B : begun None p n = [(p, 0)]) by (unfold begun, columns; destruct n; [lia|reflexivity]).
  cbn [no_memory m_time m_state m_store]. rewrite B. rewrite (session_going ideal ts calls ks' P W').
  cbn [m_time m_state m_store app]. rewrite (executed_cons p k ks'). split; [reflexivity|]. split; [reflexivity|].
  rewrite map_app. f_equal. unfold executed. cbn [flat_map fst snd]. rewrite app_nil_r, map_map. cbn. symmetry. apply const_map.
Qed.
(** so entry i of the storage belongs to column i + 1 *)
Theorem store_index : forall ideal ts calls ks p n t i, (0 < ts)%Q -> whole_calls ts ((p, n, t) :: calls) ks ->
  let m := session true ideal ts ((p, n, t) :: calls) no_memory in
  exists l, m_time m = Some l /\ length l = S (length (m_store m)) /\
    (i < length (m_store m) -> nth i (m_store m) 0 = fst (nth (S i) l (0, 0))).
Proof.
  intros ideal ts calls ks p n t i P W. cbv zeta. destruct (session_whole ideal ts calls ks p n t P W) as (A & _ & C). cbv zeta in A, C.
  exists ((p, 0) :: executed ks). split; [exact A|]. rewrite C, map_length. split; [reflexivity|]. intros L.
  cbn [nth]. apply (map_nth fst (executed ks) (0, 0)).
Qed.

(** counts for any simulated time *)
Lemma lengths : forall ideal ts t p n m, let k := Z.to_nat (Timing_Model.n_samp t ts) in let r := Z.to_nat (Timing_Model.pint (t / ts)) in
  k < n ->
  let m' := simulate true ideal ts t p n m in
  exists lt ls, m_time m' = Some lt /\ m_state m' = Some ls /\
    length lt = length (begun (m_time m) p n) + k /\
    length ls = length (begun (m_state m) p n) + (if ideal then k else Nat.min k r) /\
    length (m_store m') = length (m_store m) + r.
Proof.
  intros ideal ts t p n m k r L m'. unfold m', simulate. eexists. eexists. split; [reflexivity|]. split; [reflexivity|].
  fold k r. rewrite !app_length. rewrite cut_columns by exact L. rewrite map_length, seq_length. split; [reflexivity|].
  cbn [m_store]. unfold add_to_memory. rewrite app_length, map_length, seq_length. split; [|reflexivity]. f_equal.
  destruct ideal; [rewrite cut_columns by exact L; rewrite map_length, seq_length; reflexivity|].
  unfold cut, integrated_columns, columns. rewrite firstn_length, skipn_length, map_length, seq_length.
  unfold k, r. destruct (Z.le_gt_cases 0 (Timing_Model.pint (t / ts))); [|].
  - rewrite Z2Nat.inj_add by lia. change (Z.to_nat 1) with 1. lia.
  - replace (Z.to_nat (Timing_Model.pint (t / ts))) with 0 by lia. replace (Z.to_nat (Timing_Model.pint (t / ts) + 1)) with 0 by lia. lia.
Qed.
Theorem counts : forall ts t, (0 < ts)%Q -> (0 <= t)%Q ->
  let k := Timing_Model.n_samp t ts in let r := Timing_Model.pint (t / ts) in
  (k = r \/ k = r + 1)%Z /\
  ((t / ts < inject_Z r + 1 - (1 # 2000000))%Q -> k = r) /\
  ((inject_Z r + 1 - (1 # 2000000) < t / ts)%Q -> k = (r + 1)%Z).
Proof.
  intros ts t P T. cbv zeta. set (q := (t / ts)%Q).
  assert (Q0 : (0 <= q)%Q). { unfold q. apply Qle_shift_div_l; [exact P|]. rewrite Qmult_0_l. exact T. }
  destruct (Timing_Proofs.pint_bounds q Q0) as [A B]. set (r := Timing_Model.pint q) in *.
  unfold Timing_Model.n_samp. fold q.
  assert (R0 : (0 <= Timing_Model.round6 q)%Q).
  { rewrite <- (Timing_Proofs.round6_int 0). apply Timing_Proofs.round6_mono. exact Q0. }
  destruct (Timing_Proofs.pint_bounds _ R0) as [C D]. set (k := Timing_Model.pint (Timing_Model.round6 q)) in *.
  destruct (Timing_Proofs.round6_near q) as [E F].
  assert (LO : (inject_Z r <= Timing_Model.round6 q)%Q).
  { rewrite <- (Timing_Proofs.round6_int r). apply Timing_Proofs.round6_mono. exact A. }
  assert (HI : (Timing_Model.round6 q <= inject_Z (r + 1))%Q).
  { rewrite <- (Timing_Proofs.round6_int (r + 1)). apply Timing_Proofs.round6_mono. rewrite inject_Z_plus. change (inject_Z 1) with 1%Q. lra. }
  assert (Z1 : forall a b : Z, (inject_Z a < inject_Z b + 1)%Q -> (a <= b)%Z).
  { intros a b H. change 1%Q with (inject_Z 1) in H. rewrite <- inject_Z_plus, <- Zlt_Qlt in H. lia. }
  assert (KR : (r <= k)%Z) by (apply Z1; lra).
  assert (RK : (k <= r + 1)%Z) by (apply Z1; rewrite inject_Z_plus in *; change (inject_Z 1) with 1%Q in *; lra).
  split; [lia|]. split.
  - intros H. assert (X : (k <= r)%Z) by (apply Z1; lra). lia.
  - intros H. assert (MI : (Timing_Model.round6 q == inject_Z (r + 1))%Q).
    { apply Qle_antisym; [exact HI|]. rewrite inject_Z_plus. change (inject_Z 1) with 1%Q.
      unfold Timing_Model.round6 in *. set (z := Grid_Model.py_round (q * 1000000)) in *.
      assert (Y : (inject_Z ((r + 1) * 1000000) < inject_Z z + 1)%Q).
      { rewrite inject_Z_mult, inject_Z_plus. change (inject_Z 1) with 1%Q. change (inject_Z 1000000) with 1000000%Q.
        assert (E' : (q * 1000000 - (1#2) <= inject_Z z)%Q).
        { assert (G : (inject_Z z == inject_Z z / 1000000 * 1000000)%Q) by field. rewrite G.
          apply (Qmult_le_compat_r _ _ 1000000) in E; [|discriminate]. lra. }
        lra. }
      apply Z1 in Y. rewrite Zle_Qle, inject_Z_mult, inject_Z_plus in Y. change (inject_Z 1) with 1%Q in Y. change (inject_Z 1000000) with 1000000%Q in Y.
      apply Qle_shift_div_l; [reflexivity|]. exact Y. }
    assert (X : (r + 1 <= k)%Z) by (apply Z1; rewrite MI in D; exact D). lia.
Qed.
(** vehicles that are not simulated keep their signals, but plans are stored *)
Theorem not_simulated : forall ideal ts t p n m, let m' := simulate false ideal ts t p n m in
  m_time m' = m_time m /\ m_state m' = m_state m /\ m_store m' = m_store m ++ repeat p (Z.to_nat (Timing_Model.pint (t / ts))).
Proof. intros. unfold m', simulate, add_to_memory. rewrite const_map. repeat split. Qed.
(** updates of 0.3 s with samples of 0.1 s, in double precision: three samples, two stored plans and two states *)
Theorem doubles_refuted : exists p n lt ls, let m := simulate true false one_tenth three_tenths p n no_memory in
  m_time m = Some lt /\ m_state m = Some ls /\ length lt = 4 /\ length ls = 3 /\ length (m_store m) = 2.
Proof.
  exists 0, 10. eexists. eexists. cbv zeta. split; [reflexivity|]. split; [reflexivity|].
  split; [vm_compute; reflexivity|]. split; vm_compute; reflexivity.
Qed.

(** ** fleets *)
Theorem pass_on_spec : forall {X V} (f : X -> V -> V) xs vs,
  length (pass_on f xs vs) = length vs /\
  forall i v, nth_error vs i = Some v ->
    nth_error (pass_on f xs vs) i = Some (match nth_error xs i with Some x => f x v | None => v end).
Proof.
  intros X V f xs. induction xs as [|x xs IH]; intros vs.
  - split; [destruct vs; reflexivity|]. intros i v H. replace (nth_error (@nil X) i) with (@None X) by (destruct i; reflexivity).
    destruct vs; exact H.
  - destruct vs as [|v0 vs]; [split; [reflexivity|]; intros [|i] v H; discriminate|].
    destruct (IH vs) as [L E]. split; [cbn; lia|]. intros [|i] v H; cbn in *; [injection H as <-; reflexivity|]. apply E, H.
Qed.
Lemma nth_combine : forall {A B} (l : list A) (k : list B) i a b, nth_error l i = Some a -> nth_error k i = Some b ->
  nth_error (combine l k) i = Some (a, b).
Proof.
  intros A B l. induction l as [|x l IH]; intros k i a b H1 H2; [destruct i; discriminate|].
  destruct k as [|y k]; [destruct i; discriminate|]. destruct i as [|i]; cbn in *; [congruence|]. apply IH; assumption.
Qed.
Theorem set_initial_spec : forall {S I V} (f : S -> option I -> V -> V) states inputs vs i v s,
  nth_error vs i = Some v -> nth_error states i = Some s ->
  (inputs = None -> nth_error (set_initial f states inputs vs) i = Some (f s None v)) /\
  (forall ins u, inputs = Some ins -> nth_error ins i = Some u -> nth_error (set_initial f states inputs vs) i = Some (f s u v)) /\
  (forall ins, inputs = Some ins -> nth_error ins i = None -> nth_error (set_initial f states inputs vs) i = Some v).
Proof.
  intros S I V f states inputs vs i v s HV HS. unfold set_initial.
  assert (G : forall ins, nth_error (pass_on (fun p => f (fst p) (snd p)) (combine states ins) vs) i =
     Some (match nth_error (combine states ins) i with Some p => f (fst p) (snd p) v | None => v end)).
  { intros ins. exact (proj2 (pass_on_spec (fun p => f (fst p) (snd p)) (combine states ins) vs) i v HV). }
  split; [|split].
  - intros ->. rewrite G. rewrite (nth_combine _ _ i s None HS); [reflexivity|]. apply (map_nth_error (fun _ => @None I) i states HS).
  - intros ins u -> HU. rewrite G, (nth_combine _ _ i s u HS HU). reflexivity.
  - intros ins -> HN. rewrite G. replace (nth_error (combine states ins) i) with (@None (S * option I)); [reflexivity|].
    symmetry. apply nth_error_None. rewrite combine_length. apply nth_error_None in HN. lia.
Qed.
(** vehicles without a condition are not noticed *)
Theorem conditions_refuted : exists (vs : list (option nat)) xs, length xs < length vs /\ Forall (fun v => v = None) vs /\
  In None (pass_on (fun x _ => Some x) xs vs).
Proof.
  exists [None; None], [5]. split; [cbn; lia|]. split; [repeat constructor|]. right. left. reflexivity.
Qed.
Lemma vehicles_of_given : forall l vs, vehicles_of l = Some vs -> flat_map given l = vs.
Proof.
  induction l as [|x l IH]; intros vs H; [injection H as <-; reflexivity|]. destruct x as [v|f|]; try discriminate.
  cbn in H. destruct (vehicles_of l) as [l'|]; [|discriminate]. injection H as <-. cbn. rewrite (IH l' eq_refl). reflexivity.
Qed.
(** the vehicles of a problem are those of its fleet, and all that were given unless several fleets were *)
Theorem fleet_vehicles : forall a f vs, get_fleet_vehicles a = Some (f, vs) ->
  f_vehicles f = vs /\ ((forall g r, a = AList (IFleet g :: r) -> r = []) -> vs = all_given a).
Proof.
  intros a f vs H. destruct a as [[v|g|]|[|[v|g|] r]]; cbn in H; try discriminate.
  - injection H as <- <-. split; [reflexivity|]. intros _. reflexivity.
  - injection H as <- <-. split; [reflexivity|]. intros _. reflexivity.
  - destruct (vehicles_of r) as [l|] eqn:E; [|discriminate]. cbn in H. injection H as <- <-. split; [reflexivity|]. intros _.
    cbn. rewrite (vehicles_of_given r l E). reflexivity.
  - injection H as <- <-. split; [reflexivity|]. intros N. rewrite (N g r eq_refl). cbn. rewrite app_nil_r. reflexivity.
Qed.
Theorem fleets_refuted : exists a f vs, get_fleet_vehicles a = Some (f, vs) /\ exists v, In v (all_given a) /\ ~ In v vs.
Proof.
  exists (AList [IFleet (mkF [1] true); IFleet (mkF [2] true)]), (mkF [1] true), [1]. split; [reflexivity|].
  exists 2. split; [right; left; reflexivity|]. intros [H|[]]. discriminate.
Qed.
