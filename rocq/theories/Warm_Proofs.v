(** Proofs: which guesses are used; first points of a ring. *)
From Coq Require Import Reals List Bool Arith Lia Lra.
From Verif Require Import Spline_Model Angle_Model Angle_Proofs Warm_Model Warm_Spec.
From Verif Require Gmove_Model Spline_Proofs.
Import ListNotations.
Local Open Scope R_scope.

Lemma gather_nth : forall (A : Type) (get : nat -> option A) l r, gather get l = Some r ->
  length r = length l /\ forall k j, nth_error l k = Some j -> nth_error r k = get j.
Proof.
  intros A get l. induction l as [|a l IH]; intros r E; cbn in E.
  - injection E as <-. split; [reflexivity|]. intros [|k] j H; discriminate.
  - destruct (get a) as [x|] eqn:G; [|discriminate]. destruct (gather get l) as [y|] eqn:Y; [|discriminate]. injection E as <-.
    destruct (IH y eq_refl) as (L & N). split; [cbn; lia|]. intros [|k] j H; cbn in H |- *.
    + injection H as <-. symmetry; exact G.
    + apply N; exact H.
Qed.
Lemma gather_all : forall (A : Type) (get : nat -> option A) l, (forall k, In k l -> get k <> None) -> gather get l <> None.
Proof.
  intros A get l. induction l as [|a l IH]; intros H; cbn; [discriminate|].
  destruct (get a) as [x|] eqn:G; [|exfalso; apply (H a (or_introl eq_refl)); exact G].
  destruct (gather get l) as [y|] eqn:Y; [discriminate|]. exfalso. apply IH; [|reflexivity]. intros k K. apply H. right; exact K.
Qed.
Lemma seq_nth_error : forall n s k, (k < n)%nat -> nth_error (seq s n) k = Some (s + k)%nat.
Proof.
  induction n as [|n IH]; intros s k H; [lia|]. destruct k as [|k]; cbn; [f_equal; lia|]. rewrite IH by lia. f_equal; lia.
Qed.

Theorem first_guess : forall (A : Type) (fresh : nat -> option A) n0 n l, get_init_guess None fresh n0 n = Some l ->
  length l = n /\ forall k, (k < n)%nat -> nth_error l k = fresh k.
Proof.
  intros A fresh n0 n l E. cbn in E. destruct (gather_nth _ _ _ _ E) as (L & N). rewrite seq_length in L. split; [exact L|].
  intros k K. apply N. rewrite seq_nth_error by exact K. reflexivity.
Qed.

Lemma old_shift : forall n0 n, (1 < n)%nat -> old_idx n0 n = seq 1 (n - 1).
Proof.
  intros n0 n N. unfold old_idx. destruct (Nat.ltb_spec 1 n) as [_|]; [|lia].
  destruct (Nat.eqb_spec n 1) as [|_]; [lia|]. cbn [andb]. rewrite app_nil_r.
  destruct (Nat.ltb_spec 2 n) as [H|H].
  - replace (n - 1)%nat with (S (n - 2)) by lia. cbn. reflexivity.
  - replace n with 2%nat by lia. reflexivity.
Qed.

Theorem next_guess : forall (A : Type) (o : list A) fresh n0 n l, (1 < n <= n0)%nat -> get_init_guess (Some o) fresh n0 n = Some l ->
  length l = n /\ (forall k, (k < n - 1)%nat -> nth_error l k = nth_error o (S k)) /\ nth_error l (n - 1) = fresh (n - 1)%nat.
Proof.
  intros A o fresh n0 n l (N & N0) E. unfold get_init_guess in E.
  assert (G : guess_idx n0 n = Some [(n - 1)%nat]).
  { unfold guess_idx. destruct (Nat.eqb_spec n 1); [lia|]. cbn [andb]. destruct (Nat.eqb_spec n0 1); [lia|].
    destruct (Nat.ltb_spec 1 n); [reflexivity|lia]. }
  rewrite G, (old_shift _ _ N) in E. cbn [gather] in E.
  destruct (gather (nth_error o) (seq 1 (n - 1))) as [a|] eqn:Ea; [|discriminate].
  destruct (fresh (n - 1)%nat) as [x|] eqn:F; [|discriminate]. injection E as <-.
  destruct (gather_nth _ _ _ _ Ea) as (L & Q). rewrite seq_length in L. split; [rewrite app_length; cbn; lia|]. split.
  - intros k K. rewrite nth_error_app1 by lia. rewrite (Q k (1 + k)%nat) by (apply seq_nth_error; lia). reflexivity.
  - rewrite nth_error_app2 by lia. rewrite L, Nat.sub_diag. reflexivity.
Qed.

Theorem last_guess : forall (A : Type) (o : list A) fresh n0, (1 < n0)%nat ->
  get_init_guess (Some o) fresh n0 1 = match nth_error o 1 with Some x => Some [x] | None => None end.
Proof.
  intros A o fresh n0 N. unfold get_init_guess, guess_idx, old_idx.
  destruct (Nat.ltb_spec 1 n0); [|lia]. cbn - [nth_error]. destruct (nth_error o 1); reflexivity.
Qed.
Theorem single_guess : forall (A : Type) (o : list A) fresh,
  get_init_guess (Some o) fresh 1 1 = match fresh 0%nat with Some x => Some [x] | None => None end.
Proof. intros A o fresh. unfold get_init_guess, guess_idx, old_idx. cbn. destruct (fresh 0%nat); reflexivity. Qed.

Theorem guess_made : forall (A : Type) (old : option (list A)) fresh n0 n, (1 <= n <= n0)%nat ->
  (forall k, (k < n)%nat -> fresh k <> None) ->
  (forall o, old = Some o -> (n <= length o)%nat /\ ((1 < n0)%nat -> (1 < length o)%nat)) ->
  exists l, get_init_guess old fresh n0 n = Some l /\ length l = n.
Proof.
  intros A [o|] fresh n0 n (N & N0) F O.
  - destruct (O o eq_refl) as (Lo & L1). destruct (Nat.eq_dec n 1) as [->|N1].
    + destruct (Nat.eq_dec n0 1) as [->|M].
      * rewrite single_guess. destruct (fresh 0%nat) as [x|] eqn:E; [eexists; split; reflexivity|]. exfalso. apply (F 0%nat); [lia|exact E].
      * rewrite last_guess by lia. destruct (nth_error o 1) as [x|] eqn:E; [eexists; split; reflexivity|].
        apply nth_error_None in E. lia.
    + assert (H : get_init_guess (Some o) fresh n0 n <> None).
      { unfold get_init_guess. replace (guess_idx n0 n) with (Some [(n - 1)%nat]).
        2: { unfold guess_idx. destruct (Nat.eqb_spec n 1); [lia|]. cbn [andb]. destruct (Nat.eqb_spec n0 1); [lia|].
             destruct (Nat.ltb_spec 1 n); [reflexivity|lia]. }
        rewrite old_shift by lia.
        destruct (gather (nth_error o) (seq 1 (n - 1))) as [a|] eqn:Ea.
        - cbn. destruct (fresh (n - 1)%nat) eqn:E; [discriminate|]. exfalso. apply (F (n - 1)%nat); [lia|exact E].
        - exfalso. revert Ea. apply gather_all. intros k K. apply in_seq in K. apply nth_error_Some. lia. }
      destruct (get_init_guess (Some o) fresh n0 n) as [l|] eqn:E; [|congruence]. exists l. split; [reflexivity|].
      apply (next_guess A o fresh n0 n l); [lia|exact E].
  - destruct (get_init_guess None fresh n0 n) as [l|] eqn:E.
    + exists l. split; [reflexivity|]. apply (first_guess A fresh n0 n l E).
    + exfalso. revert E. cbn. apply gather_all. intros k K. apply in_seq in K. apply F. lia.
Qed.
Theorem guess_made_refuted : exists (old : list nat) fresh, old <> [] /\ (forall k, fresh k <> None) /\
  get_init_guess (Some old) fresh 2 1 = None.
Proof. exists [7%nat], (fun k => Some k). split; [discriminate|]. split; [discriminate|reflexivity]. Qed.

(** ** first points of a ring *)

Lemma apart_nonneg : forall p q, 0 <= apart p q.
Proof. intros. apply sqrt_pos. Qed.
Lemma apart_around : forall c r t, 0 <= r -> apart c (around c r t) = r.
Proof.
  intros c r t H. unfold apart, around. cbn [fst snd].
  replace ((fst c + r * cos t - fst c) ^ 2 + (snd c + r * sin t - snd c) ^ 2) with (r ^ 2).
  - rewrite <- Rsqr_pow2. apply sqrt_Rsqr, H.
  - pose proof (sin2_cos2 t) as E. unfold Rsqr in E.
    replace ((fst c + r * cos t - fst c) ^ 2 + (snd c + r * sin t - snd c) ^ 2) with (r ^ 2 * (sin t * sin t + cos t * cos t)) by ring.
    rewrite E. ring.
Qed.
Lemma around_atan2 : forall p q, around p (apart p q) (atan2 (snd q - snd p) (fst q - fst p)) = q.
Proof.
  intros p q. unfold around, apart. destruct (atan2_polar (snd q - snd p) (fst q - fst p)) as (C & S).
  replace ((fst q - fst p) ^ 2 + (snd q - snd p) ^ 2) with ((fst q - fst p) * (fst q - fst p) + (snd q - snd p) * (snd q - snd p)) by ring.
  rewrite C, S. rewrite (surjective_pairing q) at 3. f_equal; ring.
Qed.
Lemma around_turn : forall p r t, around p r (t + 2 * PI) = around p r t.
Proof. intros. unfold around. replace (t + 2 * PI) with (t + 2 * INR 1 * PI) by (simpl INR; ring). rewrite cos_period, sin_period. reflexivity. Qed.
Lemma Rltb_yes : forall a b, Rltb a b = true -> a < b.
Proof. intros a b. unfold Rltb. destruct (Rlt_dec a b); congruence. Qed.
Lemma Rltb_no : forall a b, Rltb a b = false -> b <= a.
Proof. intros a b. unfold Rltb. destruct (Rlt_dec a b); [discriminate|]. intros _. lra. Qed.

Theorem ring_start : forall n d p s e, (1 < n)%nat -> exists th0 th1,
  around p (apart p s) th0 = s /\ around p (apart p e) th1 = e /\
  match d with Gmove_Model.CW => th1 <= th0 < th1 + 2 * PI | Gmove_Model.CCW => th0 <= th1 < th0 + 2 * PI end /\
  length (ring_first n d p s e) = n /\
  forall k, (k < n)%nat -> nth k (ring_first n d p s e) (0, 0) = around p (apart p s) (th0 + INR k / INR (n - 1) * (th1 - th0)).
Proof.
  intros n d p s e N. destruct (ring_angles d p s e) as [t0 t1] eqn:E. exists t0, t1.
  pose proof (around_atan2 p s) as As. pose proof (around_atan2 p e) as Ae.
  pose proof (atan2_range (snd s - snd p) (fst s - fst p)) as Rs. pose proof (atan2_range (snd e - snd p) (fst e - fst p)) as Re.
  unfold ring_angles in E. cbn zeta in E.
  set (a := atan2 (snd s - snd p) (fst s - fst p)) in *. set (b := atan2 (snd e - snd p) (fst e - fst p)) in *.
  assert (Q : around p (apart p s) t0 = s /\ around p (apart p e) t1 = e /\
    match d with Gmove_Model.CW => t1 <= t0 < t1 + 2 * PI | Gmove_Model.CCW => t0 <= t1 < t0 + 2 * PI end).
  { destruct d; injection E as <- <-.
    - destruct (Rltb a b) eqn:L; [apply Rltb_yes in L|apply Rltb_no in L]; rewrite ?around_turn; repeat split; trivial; lra.
    - destruct (Rltb b a) eqn:L; [apply Rltb_yes in L|apply Rltb_no in L]; rewrite ?around_turn; repeat split; trivial; lra. }
  destruct Q as (Q1 & Q2 & Q3). split; [exact Q1|]. split; [exact Q2|]. split; [exact Q3|].
  assert (E2 : ring_angles d p s e = (t0, t1)) by exact E. unfold ring_first. rewrite E2. cbn [fst snd].
  split; [rewrite map_length, linspace_length; reflexivity|]. intros k K.
  set (f := fun t : R => _).
  rewrite (nth_indep _ (0, 0) (f 0)) by (rewrite map_length, linspace_length; exact K). rewrite map_nth.
  rewrite linspace_nth by exact K. unfold f, around, apart.
  replace ((fst s - fst p) ^ 2 + (snd s - snd p) ^ 2) with ((fst p - fst s) ^ 2 + (snd p - snd s) ^ 2) by ring.
  replace (t0 + INR k * ((t1 - t0) / INR (n - 1))) with (t0 + INR k / INR (n - 1) * (t1 - t0)) by (unfold Rdiv; ring).
  f_equal; ring.
Qed.
Theorem ring_start_ends : forall n d p s e, (1 < n)%nat ->
  nth 0 (ring_first n d p s e) (0, 0) = s /\
  (forall k, (k < n)%nat -> apart p (nth k (ring_first n d p s e) (0, 0)) = apart p s) /\
  (nth (n - 1) (ring_first n d p s e) (0, 0) = e <-> apart p e = apart p s).
Proof.
  intros n d p s e N. destruct (ring_start n d p s e N) as (t0 & t1 & S & E & _ & _ & K).
  assert (I : INR (n - 1) <> 0) by (apply not_0_INR; lia).
  split; [|split].
  - rewrite K by lia. simpl INR. replace (t0 + 0 / INR (n - 1) * (t1 - t0)) with t0 by (unfold Rdiv; ring). exact S.
  - intros k Hk. rewrite K by exact Hk. apply apart_around, apart_nonneg.
  - rewrite K by lia. replace (t0 + INR (n - 1) / INR (n - 1) * (t1 - t0)) with t1 by (field; exact I). split; intros H.
    + rewrite <- H. apply apart_around, apart_nonneg.
    + rewrite <- H. exact E.
Qed.
(** a full circle: all points are the same *)
Theorem ring_circle_refuted : exists d p s e, s = e /\ 0 < apart p s /\ forall n k, (1 < n)%nat -> (k < n)%nat -> nth k (ring_first n d p s e) (0, 0) = s.
Proof.
  exists Gmove_Model.CCW, (0, 0), (1, 0), (1, 0). split; [reflexivity|]. split.
  - unfold apart. cbn [fst snd]. replace ((1 - 0) ^ 2 + (0 - 0) ^ 2) with 1 by ring. rewrite sqrt_1. lra.
  - intros n k N K. unfold ring_first, ring_angles. cbn [fst snd].
    set (a := atan2 (0 - 0) (1 - 0)). assert (L : Rltb a a = false) by (unfold Rltb; destruct (Rlt_dec a a); [lra|reflexivity]). rewrite L.
    cbn [fst snd]. set (f := fun t : R => _).
    rewrite (nth_indep _ (0, 0) (f 0)) by (rewrite map_length, linspace_length; exact K). rewrite map_nth, linspace_nth by exact K.
    replace (a + INR k * ((a - a) / INR (n - 1))) with a by (unfold Rdiv; ring). unfold f.
    pose proof (around_atan2 (0, 0) (1, 0)) as A. unfold around, apart in A. cbn [fst snd] in A. fold a in A.
    rewrite <- A. replace ((0 - 1) ^ 2 + (0 - 0) ^ 2) with ((1 - 0) ^ 2 + (0 - 0) ^ 2) by ring. f_equal; ring.
Qed.
