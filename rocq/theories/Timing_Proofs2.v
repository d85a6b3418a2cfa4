Require Import QArith Qround ZArith List Bool String Lia Lqa Qabs Psatz Qfield.
Require Import Verif.Grid_Model Verif.Grid_Proofs Verif.Timing_Model Verif.Timing_Spec Verif.Timing_Proofs.
Import ListNotations.
Open Scope Q_scope.

(* ---------- C28 ---------- *)
Lemma zq_pos z : (0 < z)%Z -> 0 < zq z.
Proof. intros H. change 0 with (zq 0). rewrite <- Zlt_Qlt. exact H. Qed.
Lemma zq_nonneg z : (0 <= z)%Z -> 0 <= zq z.
Proof. intros H. change 0 with (zq 0). rewrite <- Zle_Qle. exact H. Qed.

Lemma ms_bounds h : 0 <= h -> zq (pint (h * 1000)) / 1000 <= h /\ h < (zq (pint (h * 1000)) + 1) / 1000.
Proof.
  intros H. assert (H' : 0 <= h * 1000) by lra. pose proof (pint_bounds _ H') as [A B].
  set (n := zq (pint (h * 1000))) in *.
  setoid_replace (n / 1000) with (n * (1 # 1000)) by field.
  setoid_replace ((n + 1) / 1000) with ((n + 1) * (1 # 1000)) by field. split; lra.
Qed.
Lemma knot3_total h ki : (0 < ki)%Z -> knot_time3 h ki * zq ki == zq (pint (h * 1000)) / 1000.
Proof. intros K. apply zq_pos in K. unfold knot_time3. field. lra. Qed.

Lemma knot3_le h ki : 0 <= h -> (0 < ki)%Z ->
  knot_time3 h ki * zq ki <= h /\ h < knot_time3 h ki * zq ki + (1 # 1000).
Proof.
  intros H K. rewrite (knot3_total h ki K). pose proof (ms_bounds h H) as [A B]. split; [exact A|].
  set (n := zq (pint (h * 1000))) in *.
  setoid_replace ((n + 1) / 1000) with (n / 1000 + (1 # 1000)) in B by field. exact B.
Qed.
Lemma knot3_eq h ki : 0 <= h -> (0 < ki)%Z ->
  (knot_time3 h ki * zq ki == h <-> exists z, h == zq z / 1000).
Proof.
  intros H K. rewrite (knot3_total h ki K). split.
  - intros E. exists (pint (h * 1000)). symmetry. exact E.
  - intros [z E]. rewrite (pint_eq (h * 1000) z) by (rewrite E; field). rewrite E. reflexivity.
Qed.

Lemma knot2_total h ki : knot_time2 h ki * zq ki == zq (ki * (pint (h * 1000) / ki)) / 1000.
Proof. unfold knot_time2. rewrite inject_Z_mult. field. Qed.
Lemma knot2_le h ki : 0 <= h -> (0 < ki)%Z ->
  knot_time2 h ki * zq ki <= h /\ h < knot_time2 h ki * zq ki + zq ki / 1000.
Proof.
  intros H K. rewrite (knot2_total h ki). pose proof (ms_bounds h H) as [A B].
  set (n := pint (h * 1000)) in *.
  pose proof (Z.mul_div_le n ki K) as C.
  assert (D : (n + 1 <= ki * (n / ki) + ki)%Z).
  { pose proof (Z.mod_pos_bound n ki K). pose proof (Z.div_mod n ki ltac:(lia)). lia. }
  rewrite Zle_Qle in C, D. rewrite inject_Z_plus in D. rewrite (inject_Z_plus (ki * (n / ki))) in D.
  change (zq 1) with 1 in D.
  set (m := zq (ki * (n / ki))) in *. set (q := zq n) in *. set (kq := zq ki) in *.
  setoid_replace (m / 1000) with (m * (1 # 1000)) by field.
  setoid_replace (kq / 1000) with (kq * (1 # 1000)) by field.
  setoid_replace (q / 1000) with (q * (1 # 1000)) in A by field.
  setoid_replace ((q + 1) / 1000) with ((q + 1) * (1 # 1000)) in B by field.
  split; lra.
Qed.
Lemma knot2_eq h ki : 0 <= h -> (0 < ki)%Z ->
  (knot_time2 h ki * zq ki == h <-> exists z, h == zq (z * ki) / 1000).
Proof.
  intros H K. rewrite (knot2_total h ki). split.
  - intros E. exists (pint (h * 1000) / ki)%Z. rewrite Z.mul_comm. symmetry. exact E.
  - intros [z E]. rewrite (pint_eq (h * 1000) (z * ki)) by (rewrite E; field).
    rewrite Z.div_mul by lia. rewrite Z.mul_comm. rewrite E. reflexivity.
Qed.

Lemma pmod_range a b : 0 < b -> 0 <= pmod a b < b.
Proof.
  intros P. unfold pmod. pose proof (Qfloor_le (a / b)) as A. pose proof (Qlt_floor (a / b)) as B.
  rewrite inject_Z_plus in B. change (zq 1) with 1 in B.
  assert (E : a == a / b * b) by (field; lra).
  set (x := a / b) in *. set (f := zq (Qfloor x)) in *.
  apply (Qmult_le_compat_r _ _ b) in A; [|lra].
  assert (B' : x * b < (f + 1) * b) by (apply Qmult_lt_r; auto).
  split; lra.
Qed.
Lemma pmod_congr a b : exists k : Z, pmod a b == a - b * zq k.
Proof. exists (Qfloor (a / b)). reflexivity. Qed.
Lemma rel_range kt t : 0 < kt -> 0 <= rel_time kt t None < kt.
Proof. intros P. apply pmod_range. exact P. Qed.

Lemma knot_pos3 h ki : (0 < ki)%Z -> (1 # 1000) <= h -> 0 < knot_time3 h ki.
Proof.
  intros K H. unfold knot_time3.
  assert (P : (1 <= pint (h * 1000))%Z).
  { rewrite <- (pint_int 1). apply pint_mono. change (zq 1) with 1. lra. }
  assert (P' : 0 < zq (pint (h * 1000))) by (apply zq_pos; lia).
  apply zq_pos in K. unfold Qdiv. apply Qmult_lt_0_compat; [|reflexivity].
  apply Qmult_lt_0_compat; [exact P'|]. apply Qinv_lt_0_compat; exact K.
Qed.
Lemma knot_pos2 h ki : (0 < ki)%Z -> zq ki / 1000 <= h -> 0 < knot_time2 h ki.
Proof.
  intros K H. unfold knot_time2.
  assert (P : (ki <= pint (h * 1000))%Z).
  { rewrite <- (pint_int ki) at 1. apply pint_mono.
    setoid_replace (zq ki / 1000) with (zq ki * (1 # 1000)) in H by field. lra. }
  assert (P' : (1 <= pint (h * 1000) / ki)%Z). { rewrite <- (Z.div_same ki) by lia. apply Z.div_le_mono; lia. }
  assert (P2 : 0 < zq (pint (h * 1000) / ki)) by (apply zq_pos; lia).
  unfold Qdiv. apply Qmult_lt_0_compat; [exact P2|reflexivity].
Qed.

(* ---------- C29 ---------- *)
Lemma interval_mono kt a b : 0 < kt -> a <= b -> (interval kt a <= interval kt b)%Z.
Proof. intros P H. apply pint_mono, round6_mono, div_mono; auto. Qed.
Lemma interval_step kt a b : 0 < kt -> 0 <= a -> b - a <= kt -> (interval kt b <= interval kt a + 1)%Z.
Proof.
  intros P A H. unfold interval.
  assert (R : b / kt <= a / kt + zq 1).
  { setoid_replace (a / kt + zq 1) with ((a + kt) / kt) by (change (zq 1) with 1; field; lra).
    apply div_mono; auto. lra. }
  apply round6_mono in R. rewrite (round6_shift (a / kt) 1) in R.
  assert (A0 : 0 <= a / kt). { setoid_replace 0 with (0 / kt) by (unfold Qdiv; ring). apply div_mono; auto. }
  assert (R0 : 0 <= round6 (a / kt)). { rewrite <- (round6_int 0). apply round6_mono. exact A0. }
  apply pint_mono in R. rewrite (pint_nonneg (round6 (a / kt) + zq 1)) in R by (change (zq 1) with 1; lra).
  rewrite floor_add in R. rewrite (pint_nonneg _ R0). exact R.
Qed.

Lemma init_step_once kt t s :
  snd (init_step kt t s) = snd s \/ snd (init_step kt t s) = S (snd s).
Proof. unfold init_step. cbn [snd]. destruct (Z.ltb _ _); auto. Qed.
Lemma init_step_iff kt t s :
  snd (init_step kt t s) = S (snd s) <-> (interval kt (fst s) < interval kt t)%Z.
Proof.
  unfold init_step. cbn [snd]. destruct (Z.ltb _ _) eqn:E.
  - apply Z.ltb_lt in E. tauto.
  - apply Z.ltb_ge in E. split; intros; lia.
Qed.

Lemma last_cons {A} (l : list A) a d : last (a :: l) d = last l a.
Proof.
  revert a d. induction l as [|x r IH]; intros a d; [reflexivity|].
  change (last (a :: x :: r) d) with (last (x :: r) d). rewrite (IH x d), (IH x a). reflexivity.
Qed.
Lemma init_steps_at_most kt l : 0 < kt -> forall t0 n, ordered t0 l ->
  (Z.of_nat (snd (init_steps kt l (t0, n))) <=
   Z.of_nat n + (interval kt (last l t0) - interval kt t0))%Z.
Proof.
  intros P. induction l as [|t r IH]; intros t0 n O; [simpl; lia|].
  destruct O as [O1 O2]. change (init_steps kt (t :: r) (t0, n)) with (init_steps kt r (init_step kt t (t0, n))).
  unfold init_step. cbn [fst snd]. specialize (IH t (if (interval kt t0 <? interval kt t)%Z then S n else n) O2).
  pose proof (interval_mono kt _ _ P O1) as M.
  rewrite last_cons.
  destruct (interval kt t0 <? interval kt t)%Z eqn:E; [apply Z.ltb_lt in E|]; lia.
Qed.

Lemma init_steps_exact kt l : 0 < kt -> forall t0 n, 0 <= t0 -> ordered t0 l -> steps_within kt t0 l ->
  Z.of_nat (snd (init_steps kt l (t0, n))) =
  (Z.of_nat n + (interval kt (last l t0) - interval kt t0))%Z.
Proof.
  intros P. induction l as [|t r IH]; intros t0 n H0 O W; [simpl; lia|].
  destruct O as [O1 O2]. destruct W as [W1 W2].
  change (init_steps kt (t :: r) (t0, n)) with (init_steps kt r (init_step kt t (t0, n))).
  unfold init_step. cbn [fst snd]. rewrite last_cons.
  rewrite IH; [|lra|exact O2|exact W2].
  pose proof (interval_mono kt _ _ P O1) as M. pose proof (interval_step kt _ _ P H0 W1) as M1.
  destruct (interval kt t0 <? interval kt t)%Z eqn:E; [apply Z.ltb_lt in E|apply Z.ltb_ge in E]; lia.
Qed.

(* times on the sample grid, knots a whole number of samples apart *)
Lemma round6_between z x : zq z <= x -> x <= zq (z + 1) - (1 # 1000000) -> Qfloor (round6 x) = z.
Proof.
  intros A B. apply floor_unique.
  - rewrite <- (round6_int z). apply round6_mono. exact A.
  - apply round6_mono in B.
    assert (M : micro (zq (z + 1) - (1 # 1000000))).
    { exists ((z + 1) * 1000000 - 1)%Z. unfold Zminus. rewrite (inject_Z_plus ((z + 1) * 1000000)), (inject_Z_mult (z + 1)).
      change (zq 1000000) with (1000000 : Q). change (zq (- (1))) with (-(1)). field. }
    rewrite (round6_micro _ M) in B. lra.
Qed.
Lemma interval_grid ts m k : 0 < ts -> (0 < m <= 1000000)%Z -> (0 <= k)%Z ->
  interval (zq m * ts) (zq k * ts) = (k / m)%Z.
Proof.
  intros P M K. unfold interval.
  assert (Pm : 0 < zq m) by (apply zq_pos; lia).
  assert (E : zq k * ts / (zq m * ts) == zq k / zq m) by (field; split; lra).
  rewrite (round6_comp _ _ E).
  assert (K0 : 0 <= zq k / zq m).
  { setoid_replace 0 with (0 / zq m) by (unfold Qdiv; ring). apply div_mono; auto. apply zq_nonneg; auto. }
  assert (R0 : 0 <= round6 (zq k / zq m)). { rewrite <- (round6_int 0). apply round6_mono. exact K0. }
  rewrite (pint_nonneg _ R0). apply round6_between.
  - setoid_replace (zq (k / m)) with (zq (k / m) * zq m / zq m) by (field; lra).
    apply div_mono; auto. rewrite <- inject_Z_mult, <- Zle_Qle. rewrite Z.mul_comm. apply Z.mul_div_le. lia.
  - assert (D : (k + 1 <= (k / m + 1) * m)%Z).
    { pose proof (Z.mod_pos_bound k m ltac:(lia)). pose proof (Z.div_mod k m ltac:(lia)). lia. }
    rewrite Zle_Qle, inject_Z_mult, (inject_Z_plus k) in D. change (zq 1) with 1 in D.
    assert (D' : (zq k + 1) / zq m <= zq (k / m + 1)).
    { setoid_replace (zq (k / m + 1)) with (zq (k / m + 1) * zq m / zq m) by (field; lra). apply div_mono; auto. }
    setoid_replace ((zq k + 1) / zq m) with (zq k / zq m + 1 / zq m) in D' by (field; lra).
    assert (I : (1 # 1000000) <= 1 / zq m).
    { apply Qle_shift_div_l; auto. assert (Mq : zq m <= zq 1000000) by (rewrite <- Zle_Qle; lia).
      change (zq 1000000) with 1000000 in Mq. lra. }
    lra.
Qed.
Lemma rel_grid ts m k : 0 < ts -> micro ts -> (0 < m)%Z ->
  rel_time (zq m * ts) (zq k * ts) None == zq (k mod m) * ts.
Proof.
  intros P U M. unfold rel_time, pmod.
  assert (Pm : 0 < zq m) by (apply zq_pos; lia).
  pose proof (round6_micro _ (micro_mult ts k U)) as R.
  assert (E : round6 (zq k * ts) / (zq m * ts) == zq k / zq m) by (rewrite R; field; split; lra).
  rewrite (Qfloor_comp _ _ E).
  assert (F : Qfloor (zq k / zq m) = (k / m)%Z).
  { apply floor_unique.
    - setoid_replace (zq (k / m)) with (zq (k / m) * zq m / zq m) by (field; lra).
      apply div_mono; auto. rewrite <- inject_Z_mult, <- Zle_Qle. rewrite Z.mul_comm. apply Z.mul_div_le. lia.
    - apply Qlt_shift_div_r; auto. rewrite <- inject_Z_mult, <- Zlt_Qlt.
      pose proof (Z.mod_pos_bound k m ltac:(lia)). pose proof (Z.div_mod k m ltac:(lia)). lia. }
  rewrite F, R.
  setoid_replace (zq (k mod m)) with (zq k - zq m * zq (k / m)).
  - ring.
  - rewrite <- inject_Z_mult. setoid_replace (zq k - zq (m * (k / m))) with (zq (k - m * (k / m))).
    + rewrite (Z.mod_eq k m) by lia. reflexivity.
    + unfold Zminus. rewrite inject_Z_plus, inject_Z_opp. ring.
Qed.

(* absolute time = shifts * knot_time + relative time *)
Lemma shift_consistent ts m l : 0 < ts -> micro ts -> (0 < m <= 1000000)%Z ->
  ordered 0 l -> steps_within (zq m * ts) 0 l -> Forall (whole ts) l ->
  let t := last l 0 in
  zq (Z.of_nat (snd (init_steps (zq m * ts) l (0, 0%nat)))) * (zq m * ts)
    + rel_time (zq m * ts) t None == t.
Proof.
  intros P U M O W F t.
  assert (Pk : 0 < zq m * ts) by (apply Qmult_lt_0_compat; auto; apply zq_pos; lia).
  rewrite (init_steps_exact _ l Pk 0 0%nat ltac:(lra) O W).
  assert (Wt : whole ts t).
  { unfold t. destruct l as [|a r]; [exists 0%Z; split; [lia|]; change (zq 0) with 0; simpl; ring|].
    apply Forall_forall with (x := last (a :: r) 0) in F; auto.
    clear. revert a. induction r as [|b r IH]; intros a; [simpl; auto|].
    change (last (a :: b :: r) 0) with (last (b :: r) 0). right. apply IH. }
  destruct Wt as [k [K E]]. fold t.
  assert (I0 : interval (zq m * ts) 0 = 0%Z).
  { unfold interval. apply pint_eq. unfold Qdiv. rewrite Qmult_0_l. apply (round6_int 0). }
  assert (It : interval (zq m * ts) t = (k / m)%Z).
  { transitivity (interval (zq m * ts) (zq k * ts)).
    - unfold interval. apply pint_comp, round6_comp. rewrite E. reflexivity.
    - apply interval_grid; auto. }
  assert (Rt : rel_time (zq m * ts) t None == zq (k mod m) * ts).
  { rewrite <- (rel_grid ts m k P U ltac:(lia)). unfold rel_time, pmod.
    assert (D : round6 t / (zq m * ts) == round6 (zq k * ts) / (zq m * ts)) by (rewrite (round6_comp _ _ E); reflexivity).
    rewrite (Qfloor_comp _ _ D), (round6_comp _ _ E). reflexivity. }
  rewrite Rt, It, I0.
  replace (Z.of_nat 0 + (k / m - 0))%Z with (k / m)%Z by lia.
  rewrite E. setoid_replace (zq (k / m) * (zq m * ts)) with (zq (m * (k / m)) * ts) by (rewrite inject_Z_mult; ring).
  rewrite <- Qmult_plus_distr_l, <- inject_Z_plus. rewrite <- Z.div_mod by lia. reflexivity.
Qed.

(* ---------- C31 ---------- *)
Section L.
  Context {C : Type}.
  Lemma cols_length n (l : list C) : (0 <= n)%Z -> (Z.to_nat n < List.length l)%nat ->
    List.length (cols n l) = Z.to_nat n.
  Proof. intros H L. unfold cols. rewrite firstn_length, skipn_length. lia. Qed.
  Lemma integrate_length flow (a : C) u t ts : List.length (integrate_ode flow a u t ts) = Z.to_nat (pint (t / ts) + 1).
  Proof. unfold integrate_ode. rewrite map_length, linspace_length. reflexivity. Qed.
  Lemma lookup_len (d : signals C) m k : aligned m d -> In k (map fst d) -> List.length (lookup k d) = m.
  Proof.
    intros A. induction A as [|[k' v] d H A IH]; intros I; [contradiction|].
    simpl. destruct (String.eqb k k') eqn:E; [exact H|].
    apply IH. destruct I as [I|I]; auto. simpl in I. subst. rewrite String.eqb_refl in E. discriminate.
  Qed.
  Lemma add_disturbance_length f (l : list C) : List.length (add_disturbance f l) = List.length l.
  Proof. unfold add_disturbance. rewrite map_length, combine_length, seq_length. lia. Qed.

  Lemma simulate_keys o (traj : signals C) t ts sig :
    map fst (simulate o traj t ts (Some sig)) = map fst sig.
  Proof. unfold simulate, started. destruct (ideal_update o); rewrite map_map; reflexivity. Qed.

  Lemma simulate_aligned o (traj : signals C) t ts L sig m n :
    0 < ts -> (0 <= n)%Z -> t == zq n * ts -> (Z.to_nat n < m)%nat ->
    aligned m traj -> (forall k, In k (map fst sig) -> In k (map fst traj)) ->
    In "input"%string (map fst traj) -> aligned L sig ->
    aligned (L + Z.to_nat n) (simulate o traj t ts (Some sig)).
  Proof.
    intros P N E M A K I S. unfold simulate. cbn [started].
    rewrite (n_samp_whole _ _ n P E).
    assert (Q : pint (t / ts) = n) by (apply pint_eq; rewrite E; field; lra).
    assert (Tr : forall k, In k (map fst sig) -> List.length (cols n (lookup k traj)) = Z.to_nat n).
    { intros k Hk. apply cols_length; auto. rewrite (lookup_len traj m); auto. }
    unfold aligned in *. destruct (ideal_update o).
    - apply Forall_forall. intros kv H. apply in_map_iff in H. destruct H as [[k v] [<- H]]. cbn [fst snd].
      rewrite app_length, Tr by (apply (in_map fst) in H; exact H).
      rewrite Forall_forall in S. pose proof (S _ H) as S1. cbn [snd] in S1. lia.
    - set (u := applied_input o traj sig t ts).
      assert (U : List.length (cols n u) = Z.to_nat n).
      { apply cols_length; auto. unfold u, applied_input.
        assert (Lu : List.length (match disturbance o with Some f => add_disturbance f (lookup "input" traj) | None => lookup "input" traj end) = m).
        { destruct (disturbance o); [rewrite add_disturbance_length|]; apply lookup_len; auto. }
        destruct (first_order o).
        - rewrite integrate_length, Q. lia.
        - rewrite Lu. exact M. }
      set (st := integrate_ode (ode_flow o) (last (lookup "state" sig) (blank o)) u t ts).
      assert (St : List.length (cols n st) = Z.to_nat n).
      { apply cols_length; auto. unfold st. rewrite integrate_length, Q. lia. }
      apply Forall_forall. intros kv H. apply in_map_iff in H. destruct H as [[k v] [<- H]]. cbn [fst snd].
      rewrite Forall_forall in S. pose proof (S _ H) as S1. cbn [snd] in S1.
      rewrite app_length.
      destruct (String.eqb k "input"); [rewrite U; lia|].
      destruct (String.eqb k "state"); [rewrite St; lia|].
      destruct (String.eqb k "pose"); [rewrite map_length, St; lia|].
      rewrite Tr by (apply (in_map fst) in H; exact H). lia.
  Qed.

  Lemma started_aligned (traj : signals C) m : (0 < m)%nat -> aligned m traj -> aligned 1 (started traj None).
  Proof.
    intros M A. unfold started, aligned. apply Forall_forall. intros kv H.
    apply in_map_iff in H. destruct H as [[k v] [<- H]]. cbn [snd].
    unfold aligned in A. rewrite Forall_forall in A. pose proof (A _ H) as A1. cbn [snd] in A1.
    rewrite firstn_length. lia.
  Qed.
  Lemma started_keys (traj : signals C) : map fst (started traj None) = map fst traj.
  Proof. unfold started. rewrite map_map. reflexivity. Qed.
  Lemma simulate_started o (traj : signals C) t ts :
    simulate o traj t ts None = simulate o traj t ts (Some (started traj None)).
  Proof. reflexivity. Qed.

  (* one step of a history: options, trajectories, simulated time *)
  Definition good_step (ts : Q) (keys : list string) (p : sim_opts C * signals C * Q) : Prop :=
    let '(o, traj, t) := p in
    map fst traj = keys /\
    exists n m, (0 <= n)%Z /\ t == zq n * ts /\ (Z.to_nat n < m)%nat /\ aligned m traj.

  Definition samples (ts : Q) (p : sim_opts C * signals C * Q) : nat := Z.to_nat (n_samp (snd p) ts).

  Lemma steps_aligned_some ts keys l : 0 < ts -> In "input"%string keys ->
    Forall (good_step ts keys) l -> forall L sig, aligned L sig -> map fst sig = keys ->
    exists sig', sim_steps ts l (Some sig) = Some sig' /\ map fst sig' = keys /\
      aligned (L + list_sum (map (samples ts) l)) sig'.
  Proof.
    intros P I F. induction F as [|[[o traj] t] l G F IH]; intros L sig A K.
    - exists sig. simpl. rewrite Nat.add_0_r. auto.
    - destruct G as [K1 (n & m & N & E & M & At)].
      unfold sim_steps. cbn [fold_left]. fold (sim_steps ts l (Some (simulate o traj t ts (Some sig)))).
      assert (A1 : aligned (L + Z.to_nat n) (simulate o traj t ts (Some sig))).
      { apply simulate_aligned with (m := m); auto; try congruence. }
      destruct (IH (L + Z.to_nat n)%nat (simulate o traj t ts (Some sig)) A1) as (s' & E' & K' & A').
      { rewrite simulate_keys. exact K. }
      exists s'. split; [exact E'|]. split; [exact K'|].
      cbn [map list_sum fold_right]. fold (list_sum (map (samples ts) l)).
      unfold samples at 1. cbn [snd]. rewrite (n_samp_whole _ _ n P E).
      replace (L + (Z.to_nat n + list_sum (map (samples ts) l)))%nat with (L + Z.to_nat n + list_sum (map (samples ts) l))%nat by lia.
      exact A'.
  Qed.

  Lemma steps_aligned ts keys l : 0 < ts -> In "input"%string keys -> l <> [] ->
    Forall (good_step ts keys) l ->
    exists sig', sim_steps ts l None = Some sig' /\ map fst sig' = keys /\
      aligned (1 + list_sum (map (samples ts) l)) sig'.
  Proof.
    intros P I N F. destruct l as [|[[o traj] t] l]; [congruence|].
    assert (E : sim_steps ts ((o, traj, t) :: l) None = sim_steps ts ((o, traj, t) :: l) (Some (started traj None))) by reflexivity.
    rewrite E. assert (G := Forall_inv F). destruct G as [K1 (n & m & Nn & Et & M & At)].
    apply steps_aligned_some; auto.
    - apply (started_aligned traj m); auto. lia.
    - rewrite started_keys. exact K1.
  Qed.

  Lemma stored_total ts keys l c : 0 < ts -> Forall (good_step ts keys) l ->
    fold_left (fun c (p : sim_opts C * signals C * Q) => stored c (snd p) ts) l c =
    (c + list_sum (map (samples ts) l))%nat.
  Proof.
    intros P F. revert c. induction F as [|[[o traj] t] l G F IH]; intros c; [simpl; lia|].
    cbn [fold_left map list_sum fold_right snd]. fold (list_sum (map (samples ts) l)). rewrite IH.
    destruct G as [_ (n & m & N & E & _)]. unfold stored, samples. cbn [snd].
    rewrite (n_samp_whole _ _ n P E).
    rewrite (pint_eq (t / ts) n) by (rewrite E; field; lra). lia.
  Qed.
End L.

Lemma regular_good {C} ts keys ns (l : list (sim_opts C * signals C * Q)) : 0 < ts ->
  Forall2 (regular ts keys) ns l -> Forall (good_step ts keys) l /\ map (samples ts) l = ns.
Proof.
  intros P F. induction F as [|n [[o tr] t] ns l (K & E & m & M & A) F [IH1 IH2]]; [split; constructor|].
  cbn [fst snd] in *. split.
  - constructor; auto. split; auto. exists (Z.of_nat n), m. rewrite Nat2Z.id. split; [lia|]. auto.
  - cbn [map]. f_equal; auto. unfold samples. cbn [snd]. rewrite (n_samp_whole _ _ _ P E). apply Nat2Z.id.
Qed.
Lemma run_aligned {C} ts keys ns (l : list (sim_opts C * signals C * Q)) : 0 < ts ->
  In "input"%string keys -> l <> [] -> Forall2 (regular ts keys) ns l ->
  exists sig', sim_steps ts l None = Some sig' /\ map fst sig' = keys /\ aligned (1 + list_sum ns) sig'.
Proof.
  intros P I N F. destruct (regular_good ts keys ns l P F) as [G <-]. apply steps_aligned; auto.
Qed.
Lemma run_stored {C} ts keys ns (l : list (sim_opts C * signals C * Q)) : 0 < ts ->
  Forall2 (regular ts keys) ns l ->
  fold_left (fun c (p : sim_opts C * signals C * Q) => stored c (snd p) ts) l 0%nat = list_sum ns.
Proof.
  intros P F. destruct (regular_good ts keys ns l P F) as [G <-]. rewrite (stored_total ts keys); auto.
Qed.
Lemma timing_count ts upd ks us s : 0 < ts ->
  Forall2 (fun k u => chosen upd u == zq (Z.of_nat k) * ts) ks us ->
  timing ts upd us reset_timing = Some s -> List.length (times s) = (1 + list_sum ks)%nat.
Proof.
  intros P F H. destruct (timing_grid _ _ _ _ _ (reset_grid ts) H) as [_ L].
  assert (E : zsum (map (fun u => n_samp (chosen upd u) ts) us) = Z.of_nat (list_sum ks)).
  { clear H L. induction F as [|k u ks us E F IH]; [reflexivity|].
    cbn [map zsum fold_right]. fold (zsum (map (fun u => n_samp (chosen upd u) ts) us)). rewrite IH.
    rewrite (n_samp_whole _ _ _ P E). change (list_sum (k :: ks)) with (k + list_sum ks)%nat. lia. }
  rewrite E in L. change (List.length (times reset_timing)) with 1%nat in L. lia.
Qed.

(* the fixed-time problem always stores enough columns *)
Lemma axis_length h rel ts : List.length (time_axis h rel ts) = Z.to_nat (store_count h rel ts).
Proof. apply linspace_length. Qed.
Lemma axis_enough h rel ts t : 0 < ts ->
  (n_samp (sim_time h rel t) ts < store_count h rel ts)%Z.
Proof.
  intros P. unfold store_count, sim_time.
  destruct (Qltb (h - rel) t) eqn:E; [lia|]. apply Qltb_ge in E.
  pose proof (n_samp_mono t (h - rel) ts P E). lia.
Qed.
Lemma axis_last h rel ts : 0 < ts -> rel <= h ->
  last (time_axis h rel ts) 0 <= h + ts * (1 # 2000000) /\ h - ts * (1 + (1 # 2000000)) <= last (time_axis h rel ts) 0.
Proof.
  intros P H. assert (H' : 0 <= h - rel) by lra.
  pose proof (n_samp_bounds _ _ P H') as [A B]. pose proof (n_samp_nonneg _ _ P H') as N.
  rewrite last_nth, axis_length. unfold time_axis, store_count. set (n := n_samp (h - rel) ts) in *.
  replace (n + 1 - 1)%Z with n by lia.
  destruct (Z.to_nat (n + 1)) as [|[|k]] eqn:E; [lia| |].
  - assert (n = 0)%Z by lia. rewrite H0 in *. change (zq 0) with 0 in *.
    cbn -[Qmult Qplus Qminus Qle]. split; lra.
  - unfold linspace. rewrite nth_map_seq by lia.
    replace (Z.of_nat (S (S k)) - 1)%Z with n by lia.
    replace (Z.of_nat (0 + (S (S k) - 1))) with n by lia.
    assert (Pn : 0 < zq n) by (apply zq_pos; lia).
    setoid_replace (rel + zq n * ((rel + zq n * ts - rel) / zq n)) with (rel + zq n * ts) by (field; lra).
    split; lra.
Qed.

(* ---------- C70: the deployer ---------- *)
Lemma delay_column ts upd prev cur rem n k M : 0 < ts ->
  upd == zq n * ts -> cur - prev == zq k * ts -> rem == zq M * ts ->
  predict_column ts upd prev cur rem false = (if Z.ltb M k then n else k).
Proof.
  intros P U K R. unfold predict_column, delay.
  rewrite (n_samp_whole _ _ n P U), (n_samp_whole _ _ M P R).
  rewrite (pint_eq ((cur - prev - upd) / ts) (k - n)).
  - replace (k - n + n)%Z with k by lia. destruct (Z.ltb M k); lia.
  - rewrite K, U. unfold Zminus. rewrite inject_Z_plus, inject_Z_opp. field. lra.
Qed.
Lemma column_in_range ts upd prev cur rem n k M : 0 < ts ->
  upd == zq n * ts -> cur - prev == zq k * ts -> rem == zq M * ts ->
  (0 <= n <= M)%Z -> (0 <= k)%Z ->
  (0 <= predict_column ts upd prev cur rem false <= M)%Z.
Proof.
  intros P U K R N K0. rewrite (delay_column ts upd prev cur rem n k M) by auto.
  destruct (Z.ltb M k) eqn:E; [lia|apply Z.ltb_ge in E; lia].
Qed.

(* ---------- what is appended ---------- *)
Section L2.
  Context {C : Type}.
  Lemma lookup_map (f : string * list C -> list C) (d : signals C) k : In k (map fst d) ->
    exists v, In (k, v) d /\ lookup k d = v /\ lookup k (map (fun kv => (fst kv, f kv)) d) = f (k, v).
  Proof.
    induction d as [|[k' v'] d IH]; intros I; [contradiction|].
    simpl. destruct (String.eqb k k') eqn:E.
    - apply String.eqb_eq in E. subst. exists v'. auto.
    - destruct I as [I|I]; [simpl in I; subst; rewrite String.eqb_refl in E; discriminate|].
      destruct (IH I) as (v & A & B & D). exists v. auto.
  Qed.
  Lemma nth_firstn (l : list C) n i d : (i < n)%nat -> nth i (firstn n l) d = nth i l d.
  Proof. revert n l. induction i; intros [|n] [|x l] H; simpl; auto; try lia. apply IHi. lia. Qed.
  Lemma nth_cols (l : list C) n i d : (i < Z.to_nat n)%nat -> nth i (cols n l) d = nth (S i) l d.
  Proof. intros H. unfold cols. rewrite nth_firstn by exact H. destruct l; [destruct i; reflexivity|reflexivity]. Qed.

  Lemma simulate_column o (traj sig : signals C) t ts n key i d : 0 < ts ->
    t == zq (Z.of_nat n) * ts -> In key (map fst sig) ->
    (ideal_update o = true \/ ~ In key ["input"; "state"; "pose"]%string) -> (i < n)%nat ->
    nth (List.length (lookup key sig) + i) (lookup key (simulate o traj t ts (Some sig))) d
      = nth (S i) (lookup key traj) d.
  Proof.
    intros P E I O Hi. unfold simulate. cbn [started]. rewrite (n_samp_whole _ _ _ P E).
    assert (T : forall v, lookup key sig = v ->
      nth (List.length (lookup key sig) + i) (v ++ cols (Z.of_nat n) (lookup key traj)) d = nth (S i) (lookup key traj) d).
    { intros v <-. rewrite app_nth2 by lia.
      replace (List.length (lookup key sig) + i - List.length (lookup key sig))%nat with i by lia.
      apply nth_cols. rewrite Nat2Z.id. exact Hi. }
    destruct (ideal_update o) eqn:Id.
    - destruct (lookup_map (fun kv => snd kv ++ cols (Z.of_nat n) (lookup (fst kv) traj)) sig key I) as (v & _ & L & ->).
      apply T. exact L.
    - destruct O as [O|O]; [discriminate|].
      edestruct (lookup_map (fun kv => snd kv ++
         (if String.eqb (fst kv) "input" then cols (Z.of_nat n) (applied_input o traj sig t ts)
          else if String.eqb (fst kv) "state" then
            cols (Z.of_nat n) (integrate_ode (ode_flow o) (last (lookup "state" sig) (blank o)) (applied_input o traj sig t ts) t ts)
          else if String.eqb (fst kv) "pose" then
            map (to_pose o) (cols (Z.of_nat n) (integrate_ode (ode_flow o) (last (lookup "state" sig) (blank o)) (applied_input o traj sig t ts) t ts))
          else cols (Z.of_nat n) (lookup (fst kv) traj))) sig key I) as (v & _ & L & R).
      rewrite R. clear R. cbn [fst snd].
      assert (N : forall s, In s ["input"; "state"; "pose"]%string -> String.eqb key s = false).
      { intros s Hs. apply not_true_iff_false. intros F. apply String.eqb_eq in F. subst. contradiction. }
      rewrite !N by (simpl; auto). apply T. exact L.
  Qed.
  Lemma lookup_app (g : string * list C -> list C) (d : signals C) k : In k (map fst d) ->
    exists x, lookup k (map (fun kv => (fst kv, snd kv ++ g kv)) d) = lookup k d ++ x.
  Proof.
    intros I. destruct (lookup_map (fun kv => snd kv ++ g kv) d k I) as (v & _ & L & R).
    rewrite R, L. cbn [snd]. eauto.
  Qed.
  Lemma simulate_prefix o (traj sig : signals C) t ts k : In k (map fst sig) ->
    exists x, lookup k (simulate o traj t ts (Some sig)) = lookup k sig ++ x.
  Proof.
    intros I. unfold simulate. cbn [started]. destruct (ideal_update o); apply lookup_app; exact I.
  Qed.
End L2.

Lemma log_times ts keys : 0 < ts -> In "input"%string keys -> In "time"%string keys ->
  forall ns (l : list (sim_opts Q * signals Q * Q)) L sig,
  Forall2 (regular ts keys) ns l ->
  replanned ts (zq (Z.of_nat L) * ts) ns (map (fun p => (tt, fun k => lookup k (snd (fst p)))) l) ->
  aligned (S L) sig -> map fst sig = keys -> on_grid ts (lookup "time" sig) ->
  exists sig', sim_steps ts l (Some sig) = Some sig' /\ on_grid ts (lookup "time" sig').
Proof.
  intros P I I2 ns l L sig F. revert L sig.
  induction F as [|n [[o tr] t] ns l R F IH]; intros L sig Rp A K G.
  - exists sig. auto.
  - destruct (regular_good ts keys [n] [(o, tr, t)] P ltac:(constructor; auto)) as [Gd _].
    destruct R as (K1 & E & m & M & At). cbn [fst snd] in *.
    cbn [map replanned] in Rp. destruct Rp as [R1 R2]. cbn [fst snd] in R1.
    set (s1 := simulate o tr t ts (Some sig)).
    assert (A1 : aligned (S L + n) s1).
    { replace n with (Z.to_nat (Z.of_nat n)) by apply Nat2Z.id.
      apply simulate_aligned with (m := m); auto; try lia; congruence. }
    assert (K2 : map fst s1 = keys) by (exact (eq_trans (simulate_keys o tr t ts sig) K)).
    assert (Ls : List.length (lookup "time" sig) = S L) by (apply lookup_len; auto; congruence).
    assert (L1 : List.length (lookup "time" s1) = (S L + n)%nat) by (apply lookup_len; auto; congruence).
    assert (G1 : on_grid ts (lookup "time" s1)).
    { split; [intros Z0; rewrite Z0 in L1; simpl in L1; lia|]. intros k Hk.
      destruct (Nat.lt_ge_cases k (S L)) as [Q|Q].
      - (* old samples stay *)
        destruct G as [_ G]. rewrite <- (G k) by lia.
        assert (Pre : exists x, lookup "time" s1 = lookup "time" sig ++ x).
        { apply simulate_prefix. congruence. }
        destruct Pre as [x ->]. rewrite app_nth1 by lia. reflexivity.
      - replace k with (List.length (lookup "time" sig) + (k - S L))%nat by lia.
        assert (X : nth (List.length (lookup "time" sig) + (k - S L)) (lookup "time" s1) 0
                    = nth (S (k - S L)) (lookup "time" tr) 0).
        { apply (simulate_column o tr sig t ts n "time" (k - S L) 0 P E); try lia; try congruence.
          right. simpl. intros [H|[H|[H|[]]]]; discriminate. }
        rewrite X.
        rewrite R1 by lia. rewrite Ls.
        rewrite <- Qmult_plus_distr_l, <- inject_Z_plus.
        replace (Z.of_nat L + Z.of_nat (S (k - S L)))%Z with (Z.of_nat (S L + (k - S L))) by lia. reflexivity. }
    unfold sim_steps. cbn [fold_left]. fold (sim_steps ts l (Some s1)).
    apply (IH (L + n)%nat s1); auto.
    assert (Eq : zq (Z.of_nat L) * ts + zq (Z.of_nat n) * ts == zq (Z.of_nat (L + n)) * ts).
    { rewrite Nat2Z.inj_add, inject_Z_plus. ring. }
    clear -R2 Eq. revert R2 Eq. generalize (zq (Z.of_nat L) * ts + zq (Z.of_nat n) * ts) as a, (zq (Z.of_nat (L + n)) * ts) as b.
    revert ns. induction l as [|p l IHl]; intros [|n' ns] a b R Eq; cbn [map replanned] in *; auto.
    destruct R as [Ra Rb]. split.
    + intros i Hi. rewrite <- Eq. auto.
    + apply (IHl ns _ _ Rb). rewrite Eq. reflexivity.
Qed.

Lemma log_times0 ts keys ns (l : list (sim_opts Q * signals Q * Q)) : 0 < ts ->
  In "input"%string keys -> In "time"%string keys -> l <> [] ->
  Forall2 (regular ts keys) ns l ->
  replanned ts 0 ns (map (fun p => (tt, fun k => lookup k (snd (fst p)))) l) ->
  exists sig', sim_steps ts l None = Some sig' /\ on_grid ts (lookup "time" sig').
Proof.
  intros P I I2 N F R. destruct l as [|[[o tr] t] l]; [congruence|].
  assert (E : sim_steps ts ((o, tr, t) :: l) None = sim_steps ts ((o, tr, t) :: l) (Some (started tr None))) by reflexivity.
  rewrite E. inversion F as [|n0 x0 ns' l' R0 F' e1 e2]; subst.
  destruct R0 as (K1 & Et & m & M & At). cbn [fst snd] in K1, At.
  assert (A1 : aligned 1 (started tr None)) by (apply (started_aligned tr m); auto; lia).
  assert (I3 : In "time"%string (map fst tr)) by congruence.
  apply (log_times ts (map fst tr) P) with (ns := n0 :: ns') (L := 0%nat); auto; try congruence.
  - (* the hypothesis in terms of 0 * ts *)
    cbn [map replanned] in *. destruct R as [Ra Rb]. split.
    + intros i Hi. rewrite Ra by exact Hi. change (zq (Z.of_nat 0)) with 0. ring.
    + revert Rb. assert (Eq : 0 + zq (Z.of_nat n0) * ts == zq (Z.of_nat 0) * ts + zq (Z.of_nat n0) * ts) by (change (zq (Z.of_nat 0)) with 0; ring).
      revert Eq. generalize (0 + zq (Z.of_nat n0) * ts) as a, (zq (Z.of_nat 0) * ts + zq (Z.of_nat n0) * ts) as b.
      clear. revert ns'. induction l as [|p l IHl]; intros [|n' ns] a b Eq R; cbn [map replanned] in *; auto.
      destruct R as [Ra Rb]. split; [intros i Hi; rewrite <- Eq; auto|].
      apply (IHl ns (a + zq (Z.of_nat n') * ts)); auto. rewrite Eq. reflexivity.
  - apply started_keys.
  - assert (L1 : List.length (lookup "time" (started tr None)) = 1%nat).
    { apply lookup_len; auto. rewrite started_keys. exact I3. }
    assert (V : nth 0 (lookup "time" (started tr None)) 0 = nth 0 (lookup "time" tr) 0).
    { unfold started. destruct (lookup_map (fun kv => firstn 1 (snd kv)) tr "time" I3) as (v & _ & Lv & Rv).
      rewrite Rv, Lv. cbn [snd]. destruct v; reflexivity. }
    split; [intros Z0; rewrite Z0 in L1; discriminate|].
    intros k Hk. assert (k = 0)%nat by lia. subst k. rewrite V.
    cbn [map replanned] in R. destruct R as [Ra _]. cbn [fst snd] in Ra. rewrite (Ra 0%nat) by lia.
    change (zq (Z.of_nat 0)) with 0. ring.
Qed.
