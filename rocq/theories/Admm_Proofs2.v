(** Proofs: communication, residuals, acceleration, fixed points. *)

From Coq Require Import List Arith Reals Lia Lra Permutation Bool.
From Verif Require Import Admm_Model Admm_Spec Admm_Proofs.
Import ListNotations.
Open Scope R_scope.

(** ** Communication *)

(** The variables that an updater owns are the same. *)
Definition own (d e : updater) : Prop :=
  x_i d = x_i e /\ z_i d = z_i e /\ z_i_p d = z_i_p e /\ l_i d = l_i e /\ l_i_p d = l_i_p e /\
  z_ij d = z_ij e /\ z_ij_p d = z_ij_p e /\ l_ij d = l_ij e /\ l_ij_p d = l_ij_p e.

Lemma own_refl : forall d, own d d.
Proof. intros. unfold own. auto 10. Qed.

Lemma own_trans : forall a b c, own a b -> own b c -> own a c.
Proof. unfold own. intuition congruence. Qed.

Lemma set_same : forall s u d, set s u d u = d.
Proof. intros. unfold set. now rewrite Nat.eqb_refl. Qed.

Lemma set_other : forall s u d v, v <> u -> set s u d v = s v.
Proof. intros. unfold set. now rewrite (proj2 (Nat.eqb_neq v u)). Qed.

Lemma receive_own : forall u s n v, own (receive u s n v) (s v).
Proof.
  intros u s n v. unfold receive. destruct (Nat.eq_dec v u) as [->|E].
  - rewrite set_same. unfold own. simpl. auto 10.
  - rewrite set_other by trivial. apply own_refl.
Qed.

Lemma receives_own : forall u l s v, own (fold_left (receive u) l s v) (s v).
Proof.
  intros u l. induction l as [|n l IH]; intros s v; simpl; [apply own_refl|].
  eapply own_trans; [apply IH|apply receive_own].
Qed.

Lemma receives_other : forall u l s v, v <> u -> fold_left (receive u) l s v = s v.
Proof.
  intros u l. induction l as [|n l IH]; intros s v E; simpl; trivial.
  rewrite IH by trivial. unfold receive. now apply set_other.
Qed.

(** What [u] holds after receiving from the neighbours in [l]. *)
Definition got (s : nat -> updater) (d : updater) (u n : nat) : Prop :=
  x_j d n = x_i (s n) /\ z_ji d n = z_ij (s n) u /\ l_ji d n = l_ij (s n) u.

Lemma receives_got : forall u l s0 s, (forall v, own (s v) (s0 v)) ->
  forall n, (In n l -> got s0 (fold_left (receive u) l s u) u n) /\
            (~ In n l -> x_j (fold_left (receive u) l s u) n = x_j (s u) n /\
                         z_ji (fold_left (receive u) l s u) n = z_ji (s u) n /\
                         l_ji (fold_left (receive u) l s u) n = l_ji (s u) n).
Proof.
  intros u l s0. induction l as [|m l IH]; intros s H n; cbn [fold_left].
  - split; [intros []|auto].
  - assert (H' : forall v, own (receive u s m v) (s0 v)).
    { intros v. eapply own_trans; [apply receive_own|apply H]. }
    specialize (IH (receive u s m) H' n) as [I1 I2].
    assert (R : forall k, x_j (receive u s m u) k = (if k =? m then x_i (s0 m) else x_j (s u) k)%nat /\
                z_ji (receive u s m u) k = (if k =? m then z_ij (s0 m) u else z_ji (s u) k)%nat /\
                l_ji (receive u s m u) k = (if k =? m then l_ij (s0 m) u else l_ji (s u) k)%nat).
    { intros k. unfold receive. rewrite set_same. cbn. unfold fset.
      destruct (H m) as [E1 [_ [_ [_ [_ [E2 [_ [E3 _]]]]]]]].
      rewrite E1, E2, E3. destruct (k =? m)%nat; auto. }
    split.
    + intros Hin. destruct (in_dec Nat.eq_dec n l) as [J|J]; [now apply I1|].
      destruct Hin as [->|Hin]; [|tauto]. destruct (I2 J) as [A [B C]].
      destruct (R n) as [A' [B' C']]. rewrite Nat.eqb_refl in A', B', C'.
      unfold got. now rewrite A, B, C, A', B', C'.
    + intros Hout. simpl in Hout. destruct (I2 ltac:(tauto)) as [A [B C]].
      destruct (R n) as [A' [B' C']]. destruct (Nat.eqb_spec n m) as [->|]; [exfalso; tauto|].
      now rewrite A, B, C, A', B', C'.
Qed.

Lemma comm_fold_own : forall nb us s v, own (fold_left (communicate nb) us s v) (s v).
Proof.
  intros nb us. induction us as [|u us IH]; intros s v; simpl; [apply own_refl|].
  eapply own_trans; [apply IH|]. apply receives_own.
Qed.

Lemma comm_fold_other : forall nb us s v, ~ In v us -> fold_left (communicate nb) us s v = s v.
Proof.
  intros nb us. induction us as [|u us IH]; intros s v H; simpl in *; trivial.
  rewrite IH by tauto. unfold communicate. apply receives_other. intros ->; tauto.
Qed.

Lemma comm_fold_got : forall nb us s0 s, NoDup us -> (forall v, own (s v) (s0 v)) ->
  forall u n, In u us -> In n (nb u) -> got s0 (fold_left (communicate nb) us s u) u n.
Proof.
  intros nb us s0. induction us as [|w us IH]; intros s Hn H u n Hu Hnb; simpl in Hu; [tauto|].
  inversion Hn; subst. cbn [fold_left]. destruct Hu as [->|Hu].
  - rewrite comm_fold_other by trivial. unfold communicate.
    now apply (proj1 (receives_got u (nb u) s0 s H n)).
  - apply IH; trivial. intros v. eapply own_trans; [apply receives_own|apply H].
Qed.

Lemma communicate_all_agree : forall N nb s, copies_agree N nb (communicate_all N nb s).
Proof.
  intros N nb s u n Hu Hn. unfold communicate_all.
  assert (G : got s (fold_left (communicate nb) (seq 0 N) s u) u n).
  { apply comm_fold_got; trivial; [apply seq_NoDup|intros; apply own_refl|apply in_seq; lia]. }
  destruct G as [G1 [G2 G3]].
  destruct (comm_fold_own nb (seq 0 N) s n) as [E1 [_ [_ [_ [_ [E2 [_ [E3 _]]]]]]]].
  rewrite G1, G2, G3, E1, E2, E3. auto.
Qed.

Lemma communicate_all_own : forall N nb s v, own (communicate_all N nb s v) (s v).
Proof. intros. apply comm_fold_own. Qed.

Lemma dual_update_agree : forall N nb rho shifts tf solver zsolver acc s,
  copies_agree N nb (dual_update N nb rho shifts tf solver zsolver acc s).
Proof. intros. apply communicate_all_agree. Qed.

(** Steps that only touch one updater. *)
Lemma for_all_local : forall (f : system -> nat -> system) (g : nat -> updater -> updater),
  (forall s u v, f s u v = if (v =? u)%nat then g u (s u) else s v) ->
  forall N s v, for_all N f s v = if (v <? N)%nat then g v (s v) else s v.
Proof.
  intros f g H N s v. unfold for_all.
  assert (G : forall us s, NoDup us -> fold_left f us s v = if existsb (Nat.eqb v) us then g v (s v) else s v).
  { induction us as [|u us IH]; intros t Hn; simpl; trivial. inversion Hn; subst.
    rewrite IH by trivial. rewrite H. destruct (Nat.eqb_spec v u) as [->|E]; simpl; trivial.
    destruct (existsb (Nat.eqb u) us) eqn:X; trivial.
    apply existsb_exists in X as [w [Hw Ew]]. apply Nat.eqb_eq in Ew. subst w. tauto. }
  rewrite G by apply seq_NoDup.
  destruct (Nat.ltb_spec v N) as [L|L].
  - replace (existsb (Nat.eqb v) (seq 0 N)) with true; trivial. symmetry.
    apply existsb_exists. exists v. split; [apply in_seq; lia|apply Nat.eqb_refl].
  - replace (existsb (Nat.eqb v) (seq 0 N)) with false; trivial. symmetry.
    destruct (existsb (Nat.eqb v) (seq 0 N)) eqn:X; trivial.
    apply existsb_exists in X as [w [Hw Ew]]. apply Nat.eqb_eq in Ew. subst w. apply in_seq in Hw. lia.
Qed.

Lemma set_as_if : forall s u d v, set s u d v = if (v =? u)%nat then d else s v.
Proof. reflexivity. Qed.

(** The neighbours' vectors that enter the z-update are the ones just
    computed. *)
Lemma first_half_fresh : forall N nb shifts tf solver s u n,
  (u < N)%nat -> In n (nb u) -> (n < N)%nat ->
  let s1 := for_all N (init_step shifts tf) s in
  x_j (first_half N nb shifts tf solver s u) n = solver n (s1 n) /\
  x_i (first_half N nb shifts tf solver s u) = solver u (s1 u).
Proof.
  intros N nb shifts tf solver s u n Hu Hn Hn' s1. unfold first_half. fold s1.
  set (s2 := for_all N (update_x solver) s1).
  assert (X : forall v, (v < N)%nat -> x_i (s2 v) = solver v (s1 v)).
  { intros v Hv. unfold s2.
    rewrite (for_all_local (update_x solver)
      (fun u d => mkUpd (solver u d) (z_i d) (z_i_p d) (l_i d) (l_i_p d) (x_j d) (z_ij d) (z_ij_p d)
                 (l_ij d) (l_ij_p d) (z_ji d) (l_ji d))) by reflexivity.
    rewrite (proj2 (Nat.ltb_lt v N)) by trivial. reflexivity. }
  destruct (communicate_all_agree N nb s2 u n Hu Hn) as [A _].
  destruct (communicate_all_own N nb s2 u) as [B _]. destruct (communicate_all_own N nb s2 n) as [C _].
  rewrite A, B, C. split; now apply X.
Qed.

(** Shifting over a knot keeps the copies equal when all updaters shift at
    the same time. *)
Definition shifted (b : bool) (tf : nat -> vec -> vec) (u : nat) (d : updater) : updater :=
  if b then mkUpd (tf u (x_i d)) (tf u (z_i d)) (tf u (z_i_p d)) (tf u (l_i d)) (tf u (l_i_p d))
                   (fun n => tf n (x_j d n)) (fun n => tf n (z_ij d n)) (fun n => tf n (z_ij_p d n))
                   (fun n => tf n (l_ij d n)) (fun n => tf n (l_ij_p d n))
                   (fun n => tf u (z_ji d n)) (fun n => tf u (l_ji d n))
  else d.

Lemma shift_local : forall shifts tf N s v,
  for_all N (init_step shifts tf) s v = if (v <? N)%nat then shifted (shifts v) tf v (s v) else s v.
Proof.
  intros shifts tf. apply (for_all_local (init_step shifts tf) (fun u d => shifted (shifts u) tf u d)).
  intros s u v. unfold init_step, shifted. destruct (shifts u); [reflexivity|].
  destruct (Nat.eqb_spec v u); congruence.
Qed.

Lemma shift_agree : forall N nb shifts tf s,
  (forall u n, (u < N)%nat -> In n (nb u) -> (n < N)%nat) ->
  (forall u v, (u < N)%nat -> (v < N)%nat -> shifts u = shifts v) ->
  copies_agree N nb s -> copies_agree N nb (for_all N (init_step shifts tf) s).
Proof.
  intros N nb shifts tf s Hr Hs H u n Hu Hn. pose proof (Hr u n Hu Hn) as Hn'.
  destruct (H u n Hu Hn) as [A [B C]]. rewrite !shift_local.
  rewrite (proj2 (Nat.ltb_lt u N)), (proj2 (Nat.ltb_lt n N)) by trivial.
  rewrite (Hs u n Hu Hn'). unfold shifted. destruct (shifts n); simpl; rewrite ?A, ?B, ?C; auto.
Qed.

(** ** Residuals *)

Lemma sum_list_nonneg : forall l, (forall x, In x l -> 0 <= x) -> 0 <= fold_right Rplus 0 l.
Proof.
  induction l as [|x l IH]; intros H; simpl; [lra|].
  assert (0 <= x) by (apply H; simpl; auto).
  assert (0 <= fold_right Rplus 0 l) by (apply IH; intros; apply H; simpl; auto). lra.
Qed.

Lemma sum_list_zero : forall l, (forall x, In x l -> 0 <= x) ->
  (fold_right Rplus 0 l = 0 <-> forall x, In x l -> x = 0).
Proof.
  induction l as [|x l IH]; intros H; simpl.
  - split; [intros _ y []|trivial].
  - assert (0 <= x) by (apply H; simpl; auto).
    assert (K : forall y, In y l -> 0 <= y) by (intros; apply H; simpl; auto).
    pose proof (sum_list_nonneg l K). split.
    + intros E y [<-|Hy]; [lra|]. apply (proj1 (IH K)); trivial. lra.
    + intros E. rewrite (E x) by auto. rewrite (proj2 (IH K)) by (intros; apply E; auto). lra.
Qed.

Lemma total_zero : forall N f, (forall u, (u < N)%nat -> 0 <= f u) ->
  (total N f = 0 <-> forall u, (u < N)%nat -> f u = 0).
Proof.
  intros N f H. unfold total. rewrite sum_list_zero.
  - split.
    + intros E u Hu. apply E. apply in_map_iff. exists u. split; [trivial|apply in_seq; lia].
    + intros E x Hx. apply in_map_iff in Hx as [u [<- Hu]]. apply in_seq in Hu. apply E. lia.
  - intros x Hx. apply in_map_iff in Hx as [u [<- Hu]]. apply in_seq in Hu. apply H. lia.
Qed.

Lemma total_nonneg : forall N f, (forall u, (u < N)%nat -> 0 <= f u) -> 0 <= total N f.
Proof.
  intros N f H. apply sum_list_nonneg. intros x Hx. apply in_map_iff in Hx as [u [<- Hu]].
  apply in_seq in Hu. apply H. lia.
Qed.

Lemma primal_nonneg : forall nb u d, 0 <= primal_sq nb u d.
Proof.
  intros. unfold primal_sq. pose proof (sqn_nonneg (vsub (x_i d) (z_i d))).
  assert (0 <= fold_right Rplus 0 (map (fun n => sqn (vsub (x_j d n) (z_ij d n))) (nb u))); [|lra].
  apply sum_list_nonneg. intros x Hx. apply in_map_iff in Hx as [n [<- _]]. apply sqn_nonneg.
Qed.

Lemma p_res_square : forall N nb s,
  p_res N nb s ^ 2 = total N (fun u => primal_sq nb u (s u)).
Proof.
  intros. unfold p_res. rewrite <- Rsqr_pow2. apply Rsqr_sqrt. apply total_nonneg.
  intros. apply primal_nonneg.
Qed.

Lemma p_res_zero : forall N nb s, fits N nb s ->
  (p_res N nb s = 0 <->
   forall u, (u < N)%nat -> x_i (s u) = z_i (s u) /\ forall n, In n (nb u) -> x_j (s u) n = z_ij (s u) n).
Proof.
  intros N nb s F. unfold p_res.
  assert (T : 0 <= total N (fun u => primal_sq nb u (s u))).
  { apply total_nonneg. intros. apply primal_nonneg. }
  transitivity (total N (fun u => primal_sq nb u (s u)) = 0).
  { split; [apply sqrt_eq_0; trivial|intros ->; apply sqrt_0]. }
  rewrite total_zero by (intros; apply primal_nonneg).
  assert (S : forall u x, In x (map (fun n => sqn (vsub (x_j (s u) n) (z_ij (s u) n))) (nb u)) -> 0 <= x).
  { intros u x Hx. apply in_map_iff in Hx as [n [<- _]]. apply sqn_nonneg. }
  split.
  - intros H u Hu. specialize (H u Hu). unfold primal_sq in H. destruct (F u Hu) as [L1 L2].
    pose proof (sqn_nonneg (vsub (x_i (s u)) (z_i (s u)))) as P.
    pose proof (sum_list_nonneg _ (S u)) as Q.
    split; [apply sqn_vsub_zero; trivial; lra|].
    intros n Hn. apply sqn_vsub_zero; [now apply L2|].
    apply (proj1 (sum_list_zero _ (S u))); [lra|]. apply in_map_iff. exists n. auto.
  - intros H u Hu. destruct (H u Hu) as [E1 E2]. destruct (F u Hu) as [L1 L2].
    unfold primal_sq. rewrite (proj2 (sqn_vsub_zero _ _ L1) E1).
    rewrite (proj2 (sum_list_zero _ (S u))); [lra|].
    intros x Hx. apply in_map_iff in Hx as [n [<- Hn]]. apply sqn_vsub_zero; [now apply L2|now apply E2].
Qed.

Lemma dd_nonneg : forall nb u d, 0 <= dd_primal nb u d.
Proof.
  intros. apply sum_list_nonneg. intros x Hx. apply in_map_iff in Hx as [n [<- _]]. apply sqn_nonneg.
Qed.

Lemma dd_p_res_zero : forall N nb s, fits N nb s ->
  (dd_p_res N nb s = 0 <-> forall u, (u < N)%nat -> forall n, In n (nb u) -> x_j (s u) n = z_ij (s u) n).
Proof.
  intros N nb s F. unfold dd_p_res.
  assert (T : 0 <= total N (fun u => dd_primal nb u (s u) ^ 2)).
  { apply total_nonneg. intros. apply pow2_ge_0. }
  transitivity (total N (fun u => dd_primal nb u (s u) ^ 2) = 0).
  { split; [apply sqrt_eq_0; trivial|intros ->; apply sqrt_0]. }
  rewrite total_zero by (intros; apply pow2_ge_0).
  assert (S : forall u x, In x (map (fun n => sqn (vsub (x_j (s u) n) (z_ij (s u) n))) (nb u)) -> 0 <= x).
  { intros u x Hx. apply in_map_iff in Hx as [n [<- _]]. apply sqn_nonneg. }
  split.
  - intros H u Hu n Hn. specialize (H u Hu). destruct (F u Hu) as [_ L2].
    assert (E : dd_primal nb u (s u) = 0).
    { simpl in H. rewrite Rmult_1_r in H. now apply Rsqr_0_uniq. }
    apply sqn_vsub_zero; [now apply L2|]. apply (proj1 (sum_list_zero _ (S u))); [exact E|].
    apply in_map_iff. exists n. auto.
  - intros H u Hu. destruct (F u Hu) as [_ L2].
    assert (E : dd_primal nb u (s u) = 0).
    { apply (proj2 (sum_list_zero _ (S u))). intros x Hx. apply in_map_iff in Hx as [n [<- Hn]].
      apply sqn_vsub_zero; [now apply L2|now apply H]. }
    rewrite E. ring.
Qed.

(** A two-updater state in which the dual decomposition residual differs from
    the root of the summed squares. *)
Definition dd_state : system := fun u =>
  mkUpd [0] [0] [0] [0] [0] (fun _ => [2]) (fun _ => [0]) (fun _ => [0]) (fun _ => [0]) (fun _ => [0])
        (fun _ => [0]) (fun _ => [0]).

Lemma dd_differs : dd_p_res 1 (fun _ => [1%nat]) dd_state = 4 /\
  sqrt (total 1 (fun u => dd_primal (fun _ => [1%nat]) u (dd_state u))) = 2.
Proof.
  unfold dd_p_res, total, dd_primal, sqn, vsub. simpl. split.
  - replace ((((2 - 0) * (2 - 0) + 0 + 0) * (((2 - 0) * (2 - 0) + 0 + 0) * 1) + 0)) with (4 * 4) by ring.
    apply sqrt_square. lra.
  - replace ((2 - 0) * (2 - 0) + 0 + 0 + 0) with (2 * 2) by ring. apply sqrt_square. lra.
Qed.

Lemma combined_split : forall N rho nb s, 0 <= rho ->
  c_res N rho nb s = rho * p_res N nb s ^ 2 + d_res N rho nb s ^ 2.
Proof.
  intros N rho nb s Hr. rewrite p_res_square. unfold d_res.
  rewrite <- Rsqr_pow2, Rsqr_sqrt.
  - unfold c_res, combined, total. generalize (seq 0 N) as l. induction l as [|u l IH]; simpl; [ring|].
    rewrite IH. ring.
  - apply total_nonneg. intros u _. unfold dual_sq.
    pose proof (sqn_nonneg (vsub (z_i (s u)) (z_i_p (s u)))).
    assert (0 <= fold_right Rplus 0 (map (fun n => sqn (vsub (z_ij (s u) n) (z_ij_p (s u) n))) (nb u))).
    { apply sum_list_nonneg. intros x Hx. apply in_map_iff in Hx as [n [<- _]]. apply sqn_nonneg. }
    apply Rplus_le_le_0_compat; now apply Rmult_le_pos.
Qed.

(** ** Acceleration *)

Lemma sqrt_alpha : forall a, 0 <= a -> 2 * a <= sqrt (1 + 4 * a ^ 2) <= 1 + 2 * a.
Proof.
  intros a H. split.
  - rewrite <- (sqrt_square (2 * a)) by lra. apply sqrt_le_1_alt. simpl. nra.
  - rewrite <- (sqrt_square (1 + 2 * a)) by lra. apply sqrt_le_1_alt. simpl. nra.
Qed.

Lemma next_alpha_grow : forall a, 1 <= a -> a + 1 / 2 <= next_alpha a <= a + 1.
Proof. intros a H. unfold next_alpha. pose proof (sqrt_alpha a). lra. Qed.

Lemma next_alpha_eq : forall a, next_alpha a * (next_alpha a - 1) = a ^ 2.
Proof.
  intros a. unfold next_alpha.
  assert (E : sqrt (1 + 4 * a ^ 2) * sqrt (1 + 4 * a ^ 2) = 1 + 4 * a ^ 2).
  { apply sqrt_sqrt. pose proof (pow2_ge_0 a). lra. }
  remember (sqrt (1 + 4 * a ^ 2)) as r. lra.
Qed.

Lemma weight_range : forall a, 1 <= a -> 0 <= weight a < 1.
Proof.
  intros a H. unfold weight. pose proof (next_alpha_grow a H) as G. split.
  - apply Rmult_le_pos; [lra|]. apply Rlt_le, Rinv_0_lt_compat. lra.
  - apply (Rmult_lt_reg_r (next_alpha a)); [lra|]. unfold Rdiv. rewrite Rmult_assoc, Rinv_l by lra. lra.
Qed.

Lemma nest_step_some : forall reset eta st c,
  nest_step reset eta st c = Some (snd (accelerate reset false eta c st [] [] [] [])).
Proof. intros. unfold nest_step. now destruct (accelerate reset false eta c st [] [] [] []) as [[a b] s]. Qed.

(** The new acceleration state does not depend on the vectors. *)
Lemma accelerate_state : forall reset ama eta c st z z_p l l_p,
  Some (snd (accelerate reset ama eta c st z z_p l l_p)) = nest_step reset eta st c.
Proof.
  intros. unfold nest_step, accelerate. destruct reset; [|reflexivity].
  now destruct (Rle_dec c (eta * c_res_p (nest_init eta c st))).
Qed.

Definition alpha_ok (st : option nesterov) : Prop :=
  match st with Some s => 1 <= alpha s | None => True end.

Lemma nest_init_ok : forall eta c st, alpha_ok st -> 1 <= alpha (nest_init eta c st).
Proof. intros eta c [s|] H; simpl in *; [trivial|lra]. Qed.

Lemma nest_step_ok : forall reset eta st c, alpha_ok st -> alpha_ok (nest_step reset eta st c).
Proof.
  intros reset eta st c H. pose proof (nest_init_ok eta c st H) as A.
  pose proof (next_alpha_grow _ A) as G. unfold nest_step, accelerate. destruct reset.
  - destruct (Rle_dec c (eta * c_res_p (nest_init eta c st))); simpl; lra.
  - simpl. lra.
Qed.

Lemma nest_run_ok : forall reset eta cs st, alpha_ok st -> alpha_ok (fold_left (nest_step reset eta) cs st).
Proof. intros reset eta cs. induction cs; intros; simpl; trivial. apply IHcs. now apply nest_step_ok. Qed.

(** Without reset alpha after k steps lies between 1 + k/2 and 1 + k. *)
Lemma nest_run_growth : forall eta c cs, exists s,
  fold_left (nest_step false eta) (c :: cs) None = Some s /\
  1 + INR (length (c :: cs)) / 2 <= alpha s <= 1 + INR (length (c :: cs)).
Proof.
  intros eta c cs.
  assert (G : forall cs a r, 1 <= a -> exists s, fold_left (nest_step false eta) cs (Some (mkNest a r)) = Some s /\
     a + INR (length cs) / 2 <= alpha s <= a + INR (length cs)).
  { induction cs0 as [|d cs0 IH]; intros a r H.
    - exists (mkNest a r). simpl. split; [trivial|lra].
    - pose proof (next_alpha_grow a H) as [G1 G2].
      destruct (IH (next_alpha a) d ltac:(lra)) as [s [E B]]. exists s. split; [exact E|].
      cbn [length]. rewrite S_INR. lra. }
  pose proof (next_alpha_grow 1 ltac:(lra)) as [G1 G2].
  destruct (G cs (next_alpha 1) c ltac:(lra)) as [s [E B]]. exists s. split; [exact E|].
  cbn [length]. rewrite S_INR. lra.
Qed.

(** A reset gives up the step: z and l are the previous ones. *)
Lemma reset_restores : forall ama eta c s z z_p l l_p,
  eta * c_res_p s < c ->
  accelerate true ama eta c (Some s) z z_p l l_p = (z_p, l_p, mkNest 1 (1 / eta * c_res_p s)).
Proof.
  intros ama eta c s z z_p l l_p H. unfold accelerate. simpl.
  destruct (Rle_dec c (eta * c_res_p s)); [lra|reflexivity].
Qed.

(** The first call always accepts, with weight zero. *)
Lemma first_accepts : forall reset ama eta c z z_p l l_p, 0 < eta ->
  length z = length z_p -> length l = length l_p ->
  accelerate reset ama eta c None z z_p l l_p = (z, l, mkNest (next_alpha 1) c).
Proof.
  intros reset ama eta c z z_p l l_p He Hz Hl. unfold accelerate. simpl.
  assert (W : forall v p, length v = length p -> extrapolate (weight 1) v p = v).
  { intros v p H. unfold extrapolate. apply vec_ext.
    - rewrite vadd_length; trivial. now rewrite vscale_length, vsub_length.
    - intros k. rewrite vadd_nth, vscale_nth by (now rewrite vscale_length, vsub_length).
      replace (weight 1) with 0 by (unfold weight; unfold Rdiv; ring). ring. }
  rewrite !W by trivial. destruct reset.
  - destruct (Rle_dec c (eta * (1 / eta * c))) as [_|N]; [now destruct ama|].
    exfalso. apply N. replace (eta * (1 / eta * c)) with c by (field; lra). lra.
  - now destruct ama.
Qed.

(** The bound grows by 1/eta at each reset, so bounded residuals cannot be
    rejected for ever. *)
Lemma rejects_grow : forall eta k cs s, 0 < eta ->
  (forall j, (j < k)%nat -> exists t, fold_left (nest_step true eta) (firstn j cs) (Some s) = Some t /\
                eta * c_res_p t < nth j cs 0) -> (k <= length cs)%nat ->
  exists t, fold_left (nest_step true eta) (firstn k cs) (Some s) = Some t /\ c_res_p t = (1 / eta) ^ k * c_res_p s.
Proof.
  intros eta k cs s He. revert cs s. induction k as [|k IH]; intros cs s H L.
  - exists s. simpl. split; [trivial|ring].
  - destruct cs as [|c cs]; simpl in L; [lia|].
    destruct (H 0%nat ltac:(lia)) as [t [E B]]. simpl in E, B. injection E as <-.
    assert (N : nest_step true eta (Some s) c = Some (mkNest 1 (1 / eta * c_res_p s))).
    { rewrite nest_step_some. rewrite reset_restores by trivial. reflexivity. }
    destruct (IH cs (mkNest 1 (1 / eta * c_res_p s))) as [t [E2 B2]].
    + intros j Hj. destruct (H (S j) ltac:(lia)) as [t [E3 B3]]. cbn [firstn fold_left] in E3.
      rewrite N in E3. exists t. auto.
    + lia.
    + exists t. cbn [firstn fold_left]. rewrite N. split; [exact E2|]. rewrite B2. simpl. ring.
Qed.

Lemma no_endless_reset : forall eta s M, 0 < eta < 1 -> 0 < c_res_p s ->
  exists k, forall cs, (k < length cs)%nat -> (forall c, In c cs -> c <= M) ->
  ~ (forall j, (j <= k)%nat -> exists t, fold_left (nest_step true eta) (firstn j cs) (Some s) = Some t /\
               eta * c_res_p t < nth j cs 0).
Proof.
  intros eta s M [He1 He2] Hc.
  assert (P : 1 < 1 / eta).
  { apply (Rmult_lt_reg_r eta); trivial. replace (1 / eta * eta) with 1 by (field; lra). lra. }
  destruct (Pow_x_infinity (1 / eta)) with (b := Rabs M / (eta * c_res_p s)) as [k Hk].
  { rewrite Rabs_pos_eq; lra. }
  exists k. intros cs Lk HM H.
  destruct (rejects_grow eta k cs s He1) as [t [E B]]; [|lia|].
  { intros j Hj. apply H. lia. }
  destruct (H k (le_n k)) as [t' [E' B']]. rewrite E in E'. injection E' as <-.
  rewrite B in B'. specialize (Hk k (le_n k)).
  rewrite Rabs_pos_eq in Hk by (apply pow_le; lra).
  assert (D : 0 < eta * c_res_p s) by (apply Rmult_lt_0_compat; lra).
  assert (K : Rabs M <= (1 / eta) ^ k * (eta * c_res_p s)).
  { apply (Rmult_le_reg_r (/ (eta * c_res_p s))); [now apply Rinv_0_lt_compat|].
    rewrite (Rmult_assoc ((1 / eta) ^ k)), Rinv_r by lra. apply Rge_le in Hk. unfold Rdiv in Hk. lra. }
  assert (In (nth k cs 0) cs) by now apply nth_In.
  specialize (HM _ H0). pose proof (Rle_abs M).
  replace (eta * ((1 / eta) ^ k * c_res_p s)) with ((1 / eta) ^ k * (eta * c_res_p s)) in B' by ring.
  lra.
Qed.

(** Once the remembered residual is zero a positive residual is rejected for
    ever. *)
Lemma reset_stuck : forall eta a cs, 0 < eta -> (forall c, In c cs -> 0 < c) -> cs <> [] ->
  fold_left (nest_step true eta) cs (Some (mkNest a 0)) = Some (mkNest 1 0).
Proof.
  intros eta a cs He. revert a. induction cs as [|c cs IH]; intros a H Hn; [contradiction|].
  assert (N : nest_step true eta (Some (mkNest a 0)) c = Some (mkNest 1 0)).
  { rewrite nest_step_some, reset_restores.
    - simpl. do 2 f_equal. ring.
    - simpl. assert (0 < c) by (apply H; simpl; auto). lra. }
  cbn [fold_left]. rewrite N. destruct cs as [|d cs]; [reflexivity|].
  apply IH; [|discriminate]. intros x Hx. apply H. simpl; auto.
Qed.
