Require Import QArith Qround ZArith List Bool String Lia Lqa Qabs Psatz Qfield.
Require Import Verif.Grid_Model Verif.Grid_Proofs Verif.Timing_Model Verif.Timing_Spec.
Import ListNotations.
Open Scope Q_scope.

(* ---------- floor, int, round ---------- *)
Lemma floor_unique q z : zq z <= q -> q < zq (z + 1) -> Qfloor q = z.
Proof.
  intros A B. pose proof (Qfloor_le q) as C. pose proof (Qlt_floor q) as D.
  assert (E : zq z < zq (Qfloor q + 1)) by lra. assert (F : zq (Qfloor q) < zq (z + 1)) by lra.
  rewrite <- Zlt_Qlt in E, F. lia.
Qed.
Lemma floor_int z : Qfloor (zq z) = z.
Proof. apply Qfloor_Z. Qed.
Lemma floor_add q z : Qfloor (q + zq z) = (Qfloor q + z)%Z.
Proof.
  apply floor_unique; pose proof (Qfloor_le q); pose proof (Qlt_floor q).
  - rewrite inject_Z_plus. lra.
  - replace (Qfloor q + z + 1)%Z with ((Qfloor q + 1) + z)%Z by lia.
    rewrite (inject_Z_plus (Qfloor q + 1) z). lra.
Qed.

Global Instance pint_comp : Proper (Qeq ==> eq) pint.
Proof.
  intros a b E. unfold pint.
  assert (F : Qle_bool 0 a = Qle_bool 0 b).
  { apply eq_true_iff_eq. rewrite !Qle_bool_iff. rewrite E. tauto. }
  rewrite F. destruct (Qle_bool 0 b).
  - apply Qfloor_comp; auto.
  - f_equal. apply Qfloor_comp. rewrite E. reflexivity.
Qed.
Lemma pint_nonneg q : 0 <= q -> pint q = Qfloor q.
Proof. intros H. unfold pint. apply Qle_bool_iff in H. rewrite H. reflexivity. Qed.
Lemma pint_int z : pint (zq z) = z.
Proof.
  unfold pint. destruct (Qle_bool 0 (zq z)) eqn:E.
  - apply floor_int.
  - assert (H : - zq z == zq (- z)) by (rewrite inject_Z_opp; reflexivity).
    rewrite (Qfloor_comp _ _ H), floor_int. lia.
Qed.
Lemma pint_eq q z : q == zq z -> pint q = z.
Proof. intros ->. apply pint_int. Qed.
Lemma pint_bounds q : 0 <= q -> zq (pint q) <= q /\ q < zq (pint q) + 1.
Proof.
  intros H. rewrite (pint_nonneg _ H). split; [apply Qfloor_le|].
  pose proof (Qlt_floor q) as L. rewrite inject_Z_plus in L. exact L.
Qed.
Lemma pint_mono a b : a <= b -> (pint a <= pint b)%Z.
Proof.
  intros H. unfold pint.
  destruct (Qle_bool 0 a) eqn:Ea; destruct (Qle_bool 0 b) eqn:Eb.
  - apply Qfloor_resp_le; auto.
  - apply Qle_bool_iff in Ea. assert (0 <= b) by lra. apply Qle_bool_iff in H0. congruence.
  - apply Qle_bool_iff in Eb. assert (Na : ~ 0 <= a) by (rewrite <- Qle_bool_iff; congruence).
    pose proof (Qfloor_resp_le 0 b Eb) as F. assert (G : 0 <= - a) by lra.
    pose proof (Qfloor_resp_le 0 (-a) G) as G'. change (Qfloor 0) with 0%Z in *. lia.
  - assert (I : - b <= - a) by lra. apply Qfloor_resp_le in I. lia.
Qed.

Global Instance py_round_comp : Proper (Qeq ==> eq) py_round.
Proof.
  intros a b E. unfold py_round.
  pose proof (Qfloor_comp _ _ E) as F. rewrite F.
  assert (G : forall c, Qltb (a - zq (Qfloor b)) c = Qltb (b - zq (Qfloor b)) c).
  { intros c. apply eq_true_iff_eq. rewrite !Qltb_lt, E. tauto. }
  assert (G' : forall c, Qltb c (a - zq (Qfloor b)) = Qltb c (b - zq (Qfloor b))).
  { intros c. apply eq_true_iff_eq. rewrite !Qltb_lt, E. tauto. }
  rewrite G, G'. reflexivity.
Qed.
Lemma py_round_int z : py_round (zq z) = z.
Proof.
  unfold py_round. rewrite floor_int.
  assert (E : Qltb (zq z - zq z) (1 # 2) = true) by (apply Qltb_lt; lra).
  rewrite E. reflexivity.
Qed.
Lemma py_round_even_shift q z : py_round (q + zq (2 * z)) = (py_round q + 2 * z)%Z.
Proof.
  unfold py_round. rewrite floor_add. set (f := Qfloor q).
  assert (S : q + zq (2 * z) - zq (f + 2 * z) == q - zq f) by (rewrite (inject_Z_plus f); lra).
  assert (G : forall c, Qltb (q + zq (2 * z) - zq (f + 2 * z)) c = Qltb (q - zq f) c).
  { intros c. apply eq_true_iff_eq. rewrite !Qltb_lt, S. tauto. }
  assert (G' : forall c, Qltb c (q + zq (2 * z) - zq (f + 2 * z)) = Qltb c (q - zq f)).
  { intros c. apply eq_true_iff_eq. rewrite !Qltb_lt, S. tauto. }
  rewrite G, G'. destruct (Qltb (q - zq f) (1 # 2)); [reflexivity|].
  destruct (Qltb (1 # 2) (q - zq f)); [lia|].
  rewrite Z.even_add_mul_2. destruct (Z.even f); lia.
Qed.
Lemma py_round_mono a b : a <= b -> (py_round a <= py_round b)%Z.
Proof.
  intros H. pose proof (Qfloor_resp_le _ _ H) as F.
  assert (LB : forall q, (Qfloor q <= py_round q)%Z /\ (py_round q <= Qfloor q + 1)%Z).
  { intros q. unfold py_round. destruct (Qltb _ _); [lia|]. destruct (Qltb _ _); [lia|].
    destruct (Z.even _); lia. }
  destruct (Z.eq_dec (Qfloor a) (Qfloor b)) as [E|N].
  - unfold py_round. rewrite E. set (f := Qfloor b).
    destruct (Qltb (a - zq f) (1 # 2)) eqn:A1.
    + destruct (Qltb (b - zq f) (1 # 2)); [lia|]. destruct (Qltb (1 # 2) (b - zq f)); [lia|].
      destruct (Z.even f); lia.
    + apply Qltb_ge in A1.
      assert (B1 : Qltb (b - zq f) (1 # 2) = false) by (apply Qltb_ge; lra). rewrite B1.
      destruct (Qltb (1 # 2) (a - zq f)) eqn:A2.
      * apply Qltb_lt in A2.
        assert (B2 : Qltb (1 # 2) (b - zq f) = true) by (apply Qltb_lt; lra). rewrite B2. lia.
      * destruct (Qltb (1 # 2) (b - zq f)); destruct (Z.even f); lia.
  - destruct (LB a), (LB b). lia.
Qed.

Global Instance round6_comp : Proper (Qeq ==> Qeq) round6.
Proof. intros a b E. unfold round6. rewrite (py_round_comp (a * 1000000) (b * 1000000)) by (rewrite E; reflexivity). reflexivity. Qed.
Lemma round6_micro q : micro q -> round6 q == q.
Proof.
  intros [z E]. unfold round6.
  rewrite (py_round_comp (q * 1000000) (zq z)) by (rewrite E; field).
  rewrite py_round_int, E. reflexivity.
Qed.
Lemma round6_int z : round6 (zq z) == zq z.
Proof.
  apply round6_micro. exists (z * 1000000)%Z. rewrite inject_Z_mult.
  change (zq 1000000) with (1000000 : Q). field.
Qed.
Lemma round6_mono a b : a <= b -> round6 a <= round6 b.
Proof.
  intros H. unfold round6.
  assert (E : a * 1000000 <= b * 1000000) by lra.
  apply py_round_mono in E. rewrite Zle_Qle in E.
  apply Qmult_le_compat_r; [exact E|]. discriminate.
Qed.
Lemma round6_near q : q - (1 # 2000000) <= round6 q /\ round6 q <= q + (1 # 2000000).
Proof.
  unfold round6. pose proof (round_bounds (q * 1000000)) as [A B].
  assert (D : zq (py_round (q * 1000000)) / 1000000 == zq (py_round (q * 1000000)) * (1 # 1000000))
    by (field).
  rewrite D. split; lra.
Qed.
Lemma round6_shift q z : round6 (q + zq z) == round6 q + zq z.
Proof.
  unfold round6.
  rewrite (py_round_comp ((q + zq z) * 1000000) (q * 1000000 + zq (2 * (500000 * z)))).
  - rewrite py_round_even_shift. rewrite inject_Z_plus, !inject_Z_mult.
    change (zq 2) with (2 : Q). change (zq 500000) with (500000 : Q). field.
  - rewrite !inject_Z_mult. change (zq 2) with (2 : Q). change (zq 500000) with (500000 : Q). ring.
Qed.

Global Instance n_samp_comp : Proper (Qeq ==> Qeq ==> eq) n_samp.
Proof. intros a b E c d F. unfold n_samp. apply pint_comp. apply round6_comp. rewrite E, F. reflexivity. Qed.
Lemma n_samp_whole t ts k : 0 < ts -> t == zq k * ts -> n_samp t ts = k.
Proof.
  intros P E. unfold n_samp. apply pint_eq.
  rewrite (round6_comp (t / ts) (zq k)) by (rewrite E; field; lra).
  apply round6_int.
Qed.
Lemma div_mono a b c : 0 < c -> a <= b -> a / c <= b / c.
Proof. intros P H. unfold Qdiv. apply Qmult_le_compat_r; [auto|]. apply Qlt_le_weak, Qinv_lt_0_compat, P. Qed.
Lemma n_samp_mono a b ts : 0 < ts -> a <= b -> (n_samp a ts <= n_samp b ts)%Z.
Proof. intros P H. unfold n_samp. apply pint_mono, round6_mono, div_mono; auto. Qed.
Lemma n_samp_0 ts : n_samp 0 ts = 0%Z.
Proof. unfold n_samp. apply pint_eq. unfold Qdiv. rewrite Qmult_0_l. apply (round6_int 0). Qed.
Lemma n_samp_nonneg t ts : 0 < ts -> 0 <= t -> (0 <= n_samp t ts)%Z.
Proof. intros P H. rewrite <- (n_samp_0 ts). apply n_samp_mono; auto. Qed.
Lemma n_samp_bounds t ts : 0 < ts -> 0 <= t ->
  zq (n_samp t ts) * ts - ts * (1 # 2000000) <= t /\ t <= (zq (n_samp t ts) + 1) * ts + ts * (1 # 2000000).
Proof.
  intros P H. unfold n_samp.
  assert (X : t == (t / ts) * ts) by (field; lra).
  set (x := t / ts) in *.
  assert (Hx : 0 <= x). { unfold x. setoid_replace 0 with (0 / ts) by (unfold Qdiv; ring). apply div_mono; auto. }
  pose proof (round6_near x) as [A B].
  assert (R0 : 0 <= round6 x). { rewrite <- (round6_int 0). apply round6_mono. exact Hx. }
  pose proof (pint_bounds _ R0) as [C D]. set (n := zq (pint (round6 x))) in *.
  assert (I1 : n - (1 # 2000000) <= x) by lra. assert (I2 : x <= n + 1 + (1 # 2000000)) by lra.
  apply (Qmult_le_compat_r _ _ ts) in I1; [|lra]. apply (Qmult_le_compat_r _ _ ts) in I2; [|lra].
  split; lra.
Qed.

(* ---------- linspace ---------- *)
Lemma linspace_length a b n : List.length (linspace a b n) = n.
Proof. destruct n as [|[|n]]; try reflexivity. simpl. rewrite map_length, seq_length. reflexivity. Qed.
Lemma nth_map_seq {A} (f : nat -> A) d m n k : (k < n)%nat -> nth k (map f (seq m n)) d = f (m + k)%nat.
Proof.
  revert m k. induction n as [|n IH]; intros m k H; [lia|].
  destruct k; simpl; [f_equal; lia|]. rewrite IH by lia. f_equal. lia.
Qed.
Lemma nat_Q_S n : zq (Z.of_nat (S n)) == zq (Z.of_nat n) + 1.
Proof. rewrite Nat2Z.inj_succ. unfold Z.succ. rewrite inject_Z_plus. reflexivity. Qed.
Lemma linspace_nth l ts n k : (k < n)%nat ->
  nth k (linspace (l + ts) (l + zq (Z.of_nat n) * ts) n) 0 == l + zq (Z.of_nat (S k)) * ts.
Proof.
  intros H. destruct n as [|[|n]]; [lia| |].
  - assert (k = 0)%nat by lia. subst. simpl. ring.
  - unfold linspace. rewrite nth_map_seq by exact H. rewrite Nat.add_0_l.
    rewrite !nat_Q_S. replace (Z.of_nat (S (S n)) - 1)%Z with (Z.of_nat (S n)) by lia.
    rewrite !nat_Q_S.
    assert (P : 0 < zq (Z.of_nat n) + 1).
    { assert (0 <= zq (Z.of_nat n)). { change 0 with (zq 0). rewrite <- Zle_Qle. lia. } lra. }
    field. lra.
Qed.

(* ---------- C26 ---------- *)
Lemma last_nth {A} (l : list A) d : last l d = nth (List.length l - 1) l d.
Proof.
  induction l as [|x [|y l] IH]; auto.
  change (last (x :: y :: l) d) with (last (y :: l) d). rewrite IH. simpl.
  rewrite Nat.sub_0_r. reflexivity.
Qed.
Lemma on_grid_last ts l : on_grid ts l -> last l 0 == zq (Z.of_nat (List.length l) - 1) * ts.
Proof.
  intros [N G]. rewrite last_nth.
  assert (0 < List.length l)%nat by (destruct l; [congruence|simpl; lia]).
  rewrite G by lia. replace (Z.of_nat (List.length l - 1)) with (Z.of_nat (List.length l) - 1)%Z by lia.
  reflexivity.
Qed.

Lemma update_timing_grid ts upd u s s' : on_grid ts (times s) ->
  update_timing ts upd u s = Some s' ->
  on_grid ts (times s') /\
  Z.of_nat (List.length (times s')) = (Z.of_nat (List.length (times s)) + n_samp (chosen upd u) ts)%Z /\
  now s' = now s + chosen upd u.
Proof.
  intros G. unfold update_timing. set (n := n_samp (chosen upd u) ts).
  destruct (Z.ltb n 0) eqn:E; [discriminate|]. apply Z.ltb_ge in E.
  intros H. injection H as <-. cbn [now times].
  pose proof (on_grid_last _ _ G) as L. destruct G as [N G].
  split; [split|split].
  - intros F. apply app_eq_nil in F. destruct F. contradiction.
  - intros k Hk. rewrite app_length, linspace_length in Hk.
    destruct (Nat.lt_ge_cases k (List.length (times s))) as [A|A].
    + rewrite app_nth1 by exact A. apply G; auto.
    + rewrite app_nth2 by exact A.
      replace (zq n) with (zq (Z.of_nat (Z.to_nat n))) by (rewrite Z2Nat.id by lia; reflexivity).
      rewrite linspace_nth by lia. rewrite L.
      assert (0 < List.length (times s))%nat by (destruct (times s); [congruence|simpl; lia]).
      setoid_replace (zq (Z.of_nat k)) with (zq (Z.of_nat (List.length (times s)) - 1) + zq (Z.of_nat (S (k - List.length (times s))))).
      * ring.
      * rewrite <- inject_Z_plus. replace (Z.of_nat k) with (Z.of_nat (List.length (times s)) - 1 + Z.of_nat (S (k - List.length (times s))))%Z by lia. reflexivity.
  - rewrite app_length, linspace_length, Nat2Z.inj_add, Z2Nat.id by lia. reflexivity.
  - reflexivity.
Qed.

Definition zsum (l : list Z) : Z := fold_right Z.add 0%Z l.

Lemma timing_grid ts upd us : forall s s', on_grid ts (times s) -> timing ts upd us s = Some s' ->
  on_grid ts (times s') /\
  Z.of_nat (List.length (times s')) =
    (Z.of_nat (List.length (times s)) + zsum (map (fun u => n_samp (chosen upd u) ts) us))%Z.
Proof.
  induction us as [|u r IH]; intros s s' G H; simpl in H.
  - injection H as <-. split; auto. simpl. lia.
  - destruct (update_timing ts upd u s) as [s1|] eqn:E; [|discriminate].
    destruct (update_timing_grid _ _ _ _ _ G E) as (G1 & L1 & _).
    destruct (IH _ _ G1 H) as [G2 L2]. split; auto.
    cbn [map zsum fold_right]. fold (zsum (map (fun u => n_samp (chosen upd u) ts) r)). lia.
Qed.
Lemma reset_grid ts : on_grid ts (times reset_timing).
Proof. split; [discriminate|]. intros k H. simpl in H. assert (k = 0)%nat by lia. subst. simpl. ring. Qed.

Lemma timing_total ts upd us : 0 < ts -> Forall (fun u => 0 <= chosen upd u) us ->
  forall s, exists s', timing ts upd us s = Some s'.
Proof.
  intros P F. induction F as [|u r Hu F IH]; intros s; simpl; [eauto|].
  unfold update_timing. pose proof (n_samp_nonneg _ _ P Hu) as N.
  apply Z.ltb_ge in N. rewrite N. apply IH.
Qed.

Lemma timing_clock ts upd us : 0 < ts ->
  Forall (fun u => whole ts (chosen upd u)) us -> forall s s', on_grid ts (times s) ->
  now s == last (times s) 0 -> timing ts upd us s = Some s' -> now s' == last (times s') 0.
Proof.
  intros P F. induction F as [|u r Hu F IH]; intros s s' G E H; simpl in H.
  - injection H as <-. exact E.
  - destruct (update_timing ts upd u s) as [s1|] eqn:U; [|discriminate].
    destruct (update_timing_grid _ _ _ _ _ G U) as (G1 & L1 & N1).
    apply (IH s1 s' G1); auto.
    destruct Hu as [k [K0 K]].
    rewrite N1, E, (on_grid_last _ _ G), (on_grid_last _ _ G1), L1, (n_samp_whole _ _ k P K), K.
    rewrite <- Qmult_plus_distr_l, <- inject_Z_plus.
    replace (Z.of_nat (List.length (times s)) - 1 + k)%Z with (Z.of_nat (List.length (times s)) + k - 1)%Z by lia.
    reflexivity.
Qed.

Lemma timing_drift ts upd us : 0 < ts ->
  Forall (fun u => 0 <= chosen upd u) us -> forall s s' e, on_grid ts (times s) ->
  Qabs (now s - last (times s) 0) <= e -> timing ts upd us s = Some s' ->
  Qabs (now s' - last (times s') 0) <= e + zq (Z.of_nat (List.length us)) * (ts * (1 + (1 # 2000000))).
Proof.
  intros P F. induction F as [|u r Hu F IH]; intros s s' e G E H; simpl in H.
  - injection H as <-. cbn [List.length]. change (zq (Z.of_nat 0)) with 0.
    rewrite Qmult_0_l, Qplus_0_r. exact E.
  - destruct (update_timing ts upd u s) as [s1|] eqn:U; [|discriminate].
    destruct (update_timing_grid _ _ _ _ _ G U) as (G1 & L1 & N1).
    assert (E1 : Qabs (now s1 - last (times s1) 0) <= e + ts * (1 + (1 # 2000000))).
    { rewrite N1, (on_grid_last _ _ G1), L1.
      rewrite (on_grid_last _ _ G) in E.
      pose proof (n_samp_bounds _ _ P Hu) as [A B].
      replace (Z.of_nat (List.length (times s)) + n_samp (chosen upd u) ts - 1)%Z
        with ((Z.of_nat (List.length (times s)) - 1) + n_samp (chosen upd u) ts)%Z by lia.
      rewrite inject_Z_plus.
      set (a := zq (Z.of_nat (List.length (times s)) - 1) * ts) in *.
      set (n := zq (n_samp (chosen upd u) ts)) in *.
      setoid_replace ((zq (Z.of_nat (List.length (times s)) - 1) + n) * ts) with (a + n * ts)
        by (unfold a; ring).
      apply Qabs_Qle_condition in E. apply Qabs_Qle_condition.
      assert (T : 0 < ts * (1 # 2000000)) by lra. split; lra. }
    specialize (IH s1 s' _ G1 E1 H).
    cbn [List.length]. rewrite nat_Q_S. lra.
Qed.

Lemma run_arg_plain ts upd : 0 < ts -> run_arg ts upd false upd = None.
Proof.
  intros P. unfold run_arg. assert (E : Qltb ts (upd - upd) = false) by (apply Qltb_ge; lra).
  rewrite E. reflexivity.
Qed.
Lemma plain_runs_timing ts upd k : 0 < ts -> forall s,
  plain_runs ts upd k s = timing ts upd (repeat None k) s.
Proof.
  intros P. induction k as [|k IH]; intros s; simpl; [reflexivity|].
  unfold run_iter. rewrite run_arg_plain by auto. destruct (update_timing ts upd None s); auto.
Qed.
Lemma run_arg_stop ts upd d : ts < 1 -> ts < d -> chosen upd (run_arg ts upd true d) == d - ts.
Proof.
  intros P D. unfold run_arg. assert (E : Qltb ts 1 = true) by (apply Qltb_lt; lra). rewrite E.
  unfold chosen, Qmax2. assert (E2 : Qltb 0 (d - ts) = true) by (apply Qltb_lt; lra). rewrite E2.
  assert (E3 : Qeq_bool (d - ts) 0 = false). { apply not_true_iff_false. rewrite Qeq_bool_iff. lra. }
  rewrite E3. reflexivity.
Qed.
Lemma zsum_repeat z k : zsum (repeat z k) = (Z.of_nat k * z)%Z.
Proof.
  induction k as [|k IH]; [reflexivity|].
  change (zsum (repeat z (S k))) with (z + zsum (repeat z k))%Z. rewrite IH. lia.
Qed.
Lemma map_repeat {A B} (f : A -> B) x k : map f (repeat x k) = repeat (f x) k.
Proof. induction k; simpl; congruence. Qed.

Lemma run_counts ts upd N m k : 0 < ts -> ts < 1 -> (0 <= N)%Z -> upd == zq N * ts -> (2 <= m)%Z ->
  exists s1 s2, plain_runs ts upd k reset_timing = Some s1 /\
    run_iter ts upd true (zq m * ts) s1 = Some s2 /\
    Z.of_nat (List.length (times s1)) = (1 + Z.of_nat k * N)%Z /\
    now s1 == last (times s1) 0 /\
    Z.of_nat (List.length (times s2)) = (1 + Z.of_nat k * N + m - 1)%Z /\
    now s2 == last (times s2) 0.
Proof.
  intros P P1 HN U M. rewrite plain_runs_timing by auto.
  assert (W : Forall (fun u => whole ts (chosen upd u)) (repeat None k)).
  { apply Forall_forall. intros u Hu. apply repeat_spec in Hu. subst u. simpl. exists N. auto. }
  assert (Pos : Forall (fun u => 0 <= chosen upd u) (repeat None k)).
  { apply Forall_forall. intros u Hu. apply repeat_spec in Hu. subst u. simpl. rewrite U.
    apply Qmult_le_0_compat; [|lra]. change 0 with (zq 0). rewrite <- Zle_Qle. auto. }
  destruct (timing_total ts upd _ P Pos reset_timing) as [s1 E1].
  exists s1. destruct (timing_grid _ _ _ _ _ (reset_grid ts) E1) as [G1 L1].
  assert (C1 : now s1 == last (times s1) 0).
  { apply (timing_clock ts upd _ P W reset_timing s1 (reset_grid ts)); [reflexivity|exact E1]. }
  assert (D : ts < zq m * ts).
  { assert (2 <= zq m). { change 2 with (zq 2). rewrite <- Zle_Qle. auto. }
    assert (0 < ts * (zq m - 1)) by (apply Qmult_lt_0_compat; lra). lra. }
  pose proof (run_arg_stop ts upd _ P1 D) as A.
  set (arg := run_arg ts upd true (zq m * ts)) in *.
  assert (Wm : chosen upd arg == zq (m - 1) * ts). { rewrite A. replace (m - 1)%Z with (m + -1)%Z by lia. rewrite inject_Z_plus. change (zq (-1)) with (- (1)). ring. }
  assert (S2 : exists s2, update_timing ts upd arg s1 = Some s2).
  { unfold update_timing. rewrite (n_samp_whole _ _ (m - 1) P Wm).
    assert (Z.ltb (m - 1) 0 = false) by (apply Z.ltb_ge; lia). rewrite H. eauto. }
  destruct S2 as [s2 E2]. exists s2.
  destruct (update_timing_grid _ _ _ _ _ G1 E2) as (G2 & L2 & N2).
  assert (L1' : Z.of_nat (List.length (times s1)) = (1 + Z.of_nat k * N)%Z).
  { rewrite L1, map_repeat, zsum_repeat. simpl chosen. rewrite (n_samp_whole _ _ N P U). reflexivity. }
  assert (L2' : Z.of_nat (List.length (times s2)) = (1 + Z.of_nat k * N + m - 1)%Z).
  { rewrite L2, (n_samp_whole _ _ (m - 1) P Wm). lia. }
  split; auto. split; [exact E2|]. split; [exact L1'|]. split; auto. split; auto.
  rewrite N2, C1, (on_grid_last _ _ G2), (on_grid_last _ _ G1), Wm, L1', L2'.
  rewrite <- Qmult_plus_distr_l, <- inject_Z_plus.
  replace (1 + Z.of_nat k * N - 1 + (m - 1))%Z with (1 + Z.of_nat k * N + m - 1 - 1)%Z by lia.
  reflexivity.
Qed.

(* ---------- C27 ---------- *)
Definition hit (ts q t : Q) : bool :=
  Qle_bool t q && Qltb q (t + ts) && Qle_bool (q - t) (t + ts - q).
Lemma hit_iff ts q t : 0 < ts -> hit ts q t = true <-> t <= q <= t + ts / 2.
Proof.
  intros P. unfold hit. rewrite !andb_true_iff, !Qle_bool_iff, Qltb_lt.
  setoid_replace (ts / 2) with (ts * (1 # 2)) by field. split; intros H; repeat split; lra.
Qed.
Lemma t2i_some ts q l : forall k r, time2index_from ts q l k = Some r ->
  exists j, (j < List.length l)%nat /\ r = (k + j)%nat /\ hit ts q (round6 (nth j l 0)) = true.
Proof.
  induction l as [|t l IH]; intros k r H; [discriminate|].
  change (time2index_from ts q (t :: l) k) with
    (if hit ts q (round6 t) then Some k else time2index_from ts q l (S k)) in H.
  destruct (hit ts q (round6 t)) eqn:E.
  - injection H as <-. exists 0%nat. simpl. split; [lia|]. split; [lia|exact E].
  - destruct (IH _ _ H) as (j & A & B & C). exists (S j). simpl. split; [lia|]. split; [lia|exact C].
Qed.
Lemma t2i_none ts q l : forall k, time2index_from ts q l k = None ->
  forall j, (j < List.length l)%nat -> hit ts q (round6 (nth j l 0)) = false.
Proof.
  induction l as [|t l IH]; intros k H j Hj; [simpl in Hj; lia|].
  change (time2index_from ts q (t :: l) k) with
    (if hit ts q (round6 t) then Some k else time2index_from ts q l (S k)) in H.
  destruct (hit ts q (round6 t)) eqn:E; [discriminate|].
  destruct j; [exact E|]. simpl. apply (IH (S k)); auto. simpl in Hj. lia.
Qed.
Lemma micro_mult ts k : micro ts -> micro (zq k * ts).
Proof. intros [z E]. exists (k * z)%Z. rewrite E, inject_Z_mult. field. Qed.
Global Instance hit_comp ts q : Proper (Qeq ==> eq) (hit ts q).
Proof.
  intros a b E. unfold hit. apply eq_true_iff_eq.
  rewrite !andb_true_iff, !Qle_bool_iff, !Qltb_lt. rewrite E. tauto.
Qed.

Lemma time2index_iff ts q l k : 0 < ts -> micro ts -> on_grid ts l ->
  time2index ts q l = Some k <->
  (k < List.length l)%nat /\ zq (Z.of_nat k) * ts <= q <= zq (Z.of_nat k) * ts + ts / 2.
Proof.
  intros P M [N G]. unfold time2index.
  assert (R : forall j, (j < List.length l)%nat -> hit ts q (round6 (nth j l 0)) = hit ts q (zq (Z.of_nat j) * ts)).
  { intros j Hj. apply hit_comp. rewrite (round6_comp _ _ (G j Hj)). apply round6_micro, micro_mult, M. }
  split.
  - intros H. apply t2i_some in H. destruct H as (j & A & -> & C). rewrite Nat.add_0_l.
    rewrite R in C by auto. apply hit_iff in C; auto.
  - intros [A B]. destruct (time2index_from ts q l 0) as [r|] eqn:E.
    + apply t2i_some in E. destruct E as (j & Aj & -> & C). rewrite Nat.add_0_l.
      rewrite R in C by auto. apply hit_iff in C; auto. f_equal.
      setoid_replace (ts / 2) with (ts * (1 # 2)) in B by field.
      setoid_replace (ts / 2) with (ts * (1 # 2)) in C by field.
      destruct (Nat.lt_trichotomy j k) as [L|[L|L]]; auto; exfalso.
      * assert (Q : zq (Z.of_nat j) + 1 <= zq (Z.of_nat k)).
        { rewrite <- nat_Q_S. rewrite <- Zle_Qle. lia. }
        apply (Qmult_le_compat_r _ _ ts) in Q; [|lra]. lra.
      * assert (Q : zq (Z.of_nat k) + 1 <= zq (Z.of_nat j)).
        { rewrite <- nat_Q_S. rewrite <- Zle_Qle. lia. }
        apply (Qmult_le_compat_r _ _ ts) in Q; [|lra]. lra.
    + pose proof (t2i_none _ _ _ _ E k A) as F. rewrite R in F by auto.
      apply hit_iff in B; auto. congruence.
Qed.
