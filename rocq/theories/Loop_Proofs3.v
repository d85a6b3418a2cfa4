(** Any number of passes: what the log contains. *)
From Coq Require Import Reals QArith Qreals ZArith Lra Lia List Arith Bool.
From Coq Require Lqa.
From Verif Require Import Spline_Model Spline_Spec Splop_Spec Vehicle_Model Vehicle_Spec Lift_Model Lift_Spec
  Loop_Model Loop_Spec Loop_Proofs Loop_Proofs2.
From Verif Require Grid_Model Timing_Model Timing_Proofs Timing_Proofs2.
Import ListNotations.
Local Open Scope R_scope.

(** the log before the new columns *)
Definition started (w : world) (p : list column) : list column :=
  match log w with Some l => l | None => firstn 1 p end.

Lemma update_shape : forall g m a w w1, steady g m -> proper_answer g a -> prepared g w = Some w1 ->
  exists p, (m < length p)%nat /\
    (forall j, (j <= m)%nat -> planned g a (now w1) (rel g (now w1) (start_time w1)) j (nth j p no_column)) /\
    update g a w = Some (mkW (now w1) (now w1) (iteration0 w1) (start_time w1)
      (Some (started w1 p ++ appended g m p (c_state (last (started w1 p) no_column)))) (Some p)
      (p_state w1) (p_input w1) (map (simulate_obstacle g (upd g)) (obstacles w1))).
Proof.
  intros g m a w w1 ST PA PR.
  destruct (store_ok g m a (now w1) (start_time w1) ST PA) as (p & E & L & C).
  exists p. split; [exact L|]. split; [exact C|].
  unfold update. rewrite PR. unfold deployed. rewrite E. unfold simulated. cbn [now start_time].
  rewrite (sim_time_full g m _ _ ST). unfold simulate_vehicle. cbn [plan log dep_now iteration0 p_state p_input obstacles].
  destruct (upd_samples g m ST) as [N1 N2]. rewrite N1, N2, Nat2Z.id.
  fold (started w1 p). set (l0 := started w1 p).
  assert (AP : appended g m p (c_state (last l0 no_column)) =
     if ideal_update g then cols m p
     else map (fun q => mkC (c_time (fst q)) (snd q) (c_input (fst q)) (c_dinput (fst q)))
       (combine (cols m p) (cols m (integrate (Q2R (ts g)) m (c_state (last l0 no_column)) (map c_input p))))).
  { unfold appended, next_state. destruct (ideal_update g).
    - rewrite (firstn_skip no_column p m L). apply map_ext. intros j. cbn zeta. destruct (nth j p no_column); reflexivity.
    - rewrite (firstn_skip no_column p m L), (firstn_skip [] (integrate _ _ _ _) m) by (rewrite integrate_length; lia).
      rewrite combine_maps, map_map. apply map_ext. intros j. reflexivity. }
  rewrite AP. destruct (ideal_update g); reflexivity.
Qed.

Lemma appended_length : forall g m p s, length (appended g m p s) = m.
Proof. intros. unfold appended. rewrite map_length, seq_length. reflexivity. Qed.
Lemma appended_nth : forall g m p s j, (1 <= j <= m)%nat ->
  nth (j - 1) (appended g m p s) no_column =
  mkC (c_time (nth j p no_column)) (next_state g m p s j) (c_input (nth j p no_column)) (c_dinput (nth j p no_column)).
Proof.
  intros g m p s j H. unfold appended. rewrite Timing_Proofs.nth_map_seq by lia.
  replace (1 + (j - 1))%nat with j by lia. reflexivity.
Qed.

(** what the log contains after the answers as_ *)
Definition logs (g : settings) (m : nat) (as_ : list answer) (l : list column) : Prop :=
  length l = (length as_ * m + 1)%nat /\
  (forall j, (j < length l)%nat -> (c_time (nth j l no_column) == inject_Z (Z.of_nat j) * ts g)%Q /\
     length (c_state (nth j l no_column)) = dim g /\ length (c_input (nth j l no_column)) = dim g) /\
  (forall n a q, nth_error as_ n = Some a -> (q <= m)%nat ->
     c_input (nth (n * m + q) l no_column) = map (fun i => course g a (phase g n) 1 i (INR q * Q2R (ts g))) (seq 0 (dim g))) /\
  (forall n a, nth_error as_ n = Some a ->
     c_state (nth (n * m) l no_column) = map (fun i => course g a (phase g n) 0 i 0) (seq 0 (dim g))) /\
  (if ideal_update g then
     forall n a q, nth_error as_ n = Some a -> (q <= m)%nat ->
       c_state (nth (n * m + q) l no_column) = map (fun i => course g a (phase g n) 0 i (INR q * Q2R (ts g))) (seq 0 (dim g))
   else forall j, (S j < length l)%nat ->
       c_state (nth (S j) l no_column) =
       trapezoid (Q2R (ts g)) (c_state (nth j l no_column)) (c_input (nth j l no_column)) (c_input (nth (S j) l no_column))).

(** the state of the loop after k >= 1 passes *)
Definition going (g : settings) (m k : nat) (w : world) (l p : list column) : Prop :=
  log w = Some l /\ plan w = Some p /\ (now w == inject_Z (Z.of_nat k) * upd g)%Q /\
  (now w == dep_now w + upd g)%Q /\ iteration0 w = false /\ (start_time w == 0)%Q /\
  (m < length p)%nat /\ c_input (last l no_column) = c_input (nth m p no_column) /\
  c_state (last l no_column) =
    (if ideal_update g then c_state (nth m p no_column)
     else last (integrate (Q2R (ts g)) m (c_state (nth ((k - 1) * m) l no_column)) (map c_input p)) []).

Lemma prepared_first : forall g s i obs, prepared g (world0 s i obs) = Some (mkW 0 0 false 0 None None s i obs).
Proof. reflexivity. Qed.

Lemma prepared_any : forall g m k w l p, steady g m -> (1 <= k)%nat ->
  log w = Some l -> plan w = Some p -> (now w == inject_Z (Z.of_nat k) * upd g)%Q ->
  (now w == dep_now w + upd g)%Q -> iteration0 w = false -> (start_time w == 0)%Q -> (m < length p)%nat ->
  length l = (k * m + 1)%nat -> (c_time (last l no_column) == now w)%Q ->
  prepared g w = Some (mkW (now w) (dep_now w) false (start_time w) (Some l) (Some p)
     (if ideal_prediction g then c_state (nth m p no_column)
      else last (integrate (Q2R (ts g)) m (c_state (nth ((k - 1) * m) l no_column)) (map c_input p)) [])
     (c_input (nth m p no_column)) (obstacles w)).
Proof.
  intros g m k w l p ST K A B C D E F G LEN TL.
  destruct (upd_samples g m ST) as [N1 N2]. pose proof (upd_pos g m ST) as UP. pose proof ST as (S1 & S2 & _).
  unfold prepared. rewrite E.
  assert (U : dep_update g w = upd g).
  { unfold dep_update. rewrite A. apply shortened_full; [exact S1|]. rewrite TL, D. ring. }
  rewrite U.
  assert (DL : dep_delay g w (upd g) = 0%Z).
  { unfold dep_delay. rewrite B, E. apply delay_0; assumption. }
  rewrite DL. unfold predict.
  assert (NS : Qeq_bool (now w) (start_time w) = false).
  { destruct (Qeq_bool (now w) (start_time w)) eqn:Q; [|reflexivity]. apply Qeq_bool_iff in Q. exfalso.
    rewrite C, F in Q.
    assert (P : (0 < inject_Z (Z.of_nat k) * upd g)%Q).
    { apply Qmult_lt_0_compat; [apply Timing_Proofs2.zq_pos; lia|exact UP]. }
    Lqa.lra. }
  rewrite NS, B, N1, N2, A. rewrite Z.add_0_r.
  assert (PN : py_nth p (Z.of_nat m) = Some (nth m p no_column)).
  { unfold py_nth. assert (X : (Z.of_nat m <? 0)%Z = false) by (apply Z.ltb_ge; lia). rewrite !X, Nat2Z.id.
    apply nth_error_nth'. exact G. }
  rewrite PN. destruct (ideal_prediction g); [reflexivity|].
  assert (PL : py_nth l (- Z.of_nat m - 1) = Some (nth ((k - 1) * m) l no_column)).
  { unfold py_nth. assert (X : (- Z.of_nat m - 1 <? 0)%Z = true) by (apply Z.ltb_lt; lia). rewrite X.
    assert (Y : (Z.of_nat (length l) + (- Z.of_nat m - 1) = Z.of_nat ((k - 1) * m))%Z).
    { rewrite LEN. destruct k; [lia|]. replace (S k - 1)%nat with k by lia. rewrite Nat.mul_succ_l. lia. }
    rewrite Y. assert (W : (Z.of_nat ((k - 1) * m) <? 0)%Z = false) by (apply Z.ltb_ge, Nat2Z.is_nonneg). rewrite W, Nat2Z.id.
    apply nth_error_nth'. rewrite LEN. destruct k; [lia|]. replace (S k - 1)%nat with k by lia. rewrite Nat.mul_succ_l. lia. }
  rewrite PL, Nat2Z.id. reflexivity.
Qed.

Lemma prepared_going : forall g m k w l p, steady g m -> consistent g -> (1 <= k)%nat -> going g m k w l p ->
  length l = (k * m + 1)%nat -> (c_time (last l no_column) == now w)%Q ->
  prepared g w = Some (mkW (now w) (dep_now w) false (start_time w) (Some l) (Some p)
     (c_state (last l no_column)) (c_input (last l no_column)) (obstacles w)).
Proof.
  intros g m k w l p ST CO K (A & B & C & D & E & F & G & H & I) LEN TL.
  rewrite (prepared_any g m k w l p ST K A B C D E F G LEN TL), CO, <- I, <- H. reflexivity.
Qed.

(** appending one answer *)
Lemma passes_snoc : forall g as_ a w, passes g (as_ ++ [a]) w =
  match passes g as_ w with None => None | Some w' => pass g a w' end.
Proof.
  intros g as_. induction as_ as [|b as_ IH]; intros a w.
  - cbn. destruct (pass g a w); reflexivity.
  - cbn [app passes]. destruct (pass g b w); [apply IH|reflexivity].
Qed.
Lemma all_snoc : forall P g as_ a w, all_answers P g (as_ ++ [a]) w <->
  all_answers P g as_ w /\ (forall w', passes g as_ w = Some w' -> forall w1, prepared g w' = Some w1 -> P w1 a).
Proof.
  intros P g as_. induction as_ as [|b as_ IH]; intros a w.
  - cbn. split.
    + intros [A _]. split; [exact Logic.I|]. intros w' E. injection E as <-. exact A.
    + intros [_ A]. split; [apply A; reflexivity|trivial].
  - cbn [app all_answers passes]. split.
    + intros [A B]. split; [split; [exact A|]|].
      * intros w2 E. apply (proj1 (IH a w2) (B w2 E)).
      * intros w' E. destruct (pass g b w) as [w2|] eqn:Q; [|discriminate].
        apply (proj1 (IH a w2) (B w2 eq_refl)). exact E.
    + intros [[A B] C]. split; [exact A|]. intros w2 E. rewrite E in C. apply IH. split; [apply B, E|exact C].
Qed.

Lemma map_seq_nth : forall (f : nat -> R) s d, length s = d -> (forall i, (i < d)%nat -> f i = nth i s 0) -> map f (seq 0 d) = s.
Proof.
  intros f s d L H. apply (nth_ext _ _ 0 0).
  - rewrite map_length, seq_length. symmetry. exact L.
  - intros n Hn. rewrite map_length, seq_length in Hn. rewrite Timing_Proofs.nth_map_seq by exact Hn. apply H, Hn.
Qed.
Lemma course_now : forall g m a t s k q o, (t == inject_Z (Z.of_nat k) * upd g)%Q -> (s == 0)%Q ->
  map (fun i => course g a (rel g t s) o i (INR q * m)) (seq 0 (dim g)) =
  map (fun i => course g a (phase g k) o i (INR q * m)) (seq 0 (dim g)).
Proof. intros. apply map_ext. intros i. apply course_rel, rel_phase; assumption. Qed.

Lemma error_snoc : forall {A} (l : list A) a n b, nth_error (l ++ [a]) n = Some b ->
  (n < length l)%nat /\ nth_error l n = Some b \/ n = length l /\ a = b.
Proof.
  intros A l a n b H. destruct (le_lt_dec (length l) n) as [L|L].
  - right. rewrite nth_error_app2 in H by exact L. destruct (n - length l)%nat as [|q] eqn:Q.
    + split; [lia|]. cbn in H. injection H as H. exact H.
    + cbn in H. destruct q; discriminate.
  - left. rewrite nth_error_app1 in H by exact L. auto.
Qed.

Lemma step_log : forall g m as_ a w1 p l0, steady g m ->
  (now w1 == inject_Z (Z.of_nat (length as_)) * upd g)%Q -> (start_time w1 == 0)%Q ->
  (m < length p)%nat ->
  (forall j, (j <= m)%nat -> planned g a (now w1) (rel g (now w1) (start_time w1)) j (nth j p no_column)) ->
  logs g m as_ l0 -> c_state (last l0 no_column) = p_state w1 -> c_input (last l0 no_column) = p_input w1 ->
  starts_right g w1 a ->
  let l := l0 ++ appended g m p (c_state (last l0 no_column)) in
  logs g m (as_ ++ [a]) l /\ (forall j, (j < length l0)%nat -> nth j l no_column = nth j l0 no_column) /\
  c_input (last l no_column) = c_input (nth m p no_column) /\
  c_state (last l no_column) =
    (if ideal_update g then c_state (nth m p no_column)
     else last (integrate (Q2R (ts g)) m (c_state (nth (length as_ * m) l no_column)) (map c_input p)) []) /\
  (c_time (last l no_column) == now w1 + upd g)%Q.
Proof.
  intros g m as_ a w1 p l0 ST NW SW PL PC (L1 & L2 & L3 & L4 & L5) LS LI SR l.
  pose proof ST as (S1 & S2 & S3 & _).
  set (k := length as_) in *. set (s0 := c_state (last l0 no_column)) in *.
  assert (OLD : forall j, (j < length l0)%nat -> nth j l no_column = nth j l0 no_column).
  { intros j J. unfold l. apply app_nth1. exact J. }
  assert (LL : length l = (S k * m + 1)%nat).
  { unfold l. rewrite app_length, appended_length, L1, Nat.mul_succ_l. lia. }
  assert (NEW : forall q, (1 <= q <= m)%nat -> nth (k * m + q) l no_column =
     mkC (c_time (nth q p no_column)) (next_state g m p s0 q) (c_input (nth q p no_column)) (c_dinput (nth q p no_column))).
  { intros q Q. unfold l. rewrite app_nth2 by lia. rewrite L1.
    replace (k * m + q - (k * m + 1))%nat with (q - 1)%nat by lia. apply appended_nth. exact Q. }
  assert (LAST0 : last l0 no_column = nth (k * m) l0 no_column).
  { rewrite Timing_Proofs.last_nth, L1. f_equal. lia. }
  assert (AT0 : nth (k * m) l no_column = last l0 no_column).
  { rewrite LAST0. apply OLD. lia. }
  assert (LASTL : last l no_column = nth (k * m + m) l no_column).
  { rewrite Timing_Proofs.last_nth, LL, Nat.mul_succ_l. f_equal. lia. }
  assert (SI : forall o q, map (fun i => course g a (rel g (now w1) (start_time w1)) o i (INR q * Q2R (ts g))) (seq 0 (dim g)) =
      map (fun i => course g a (phase g k) o i (INR q * Q2R (ts g))) (seq 0 (dim g))).
  { intros o q. apply course_now; assumption. }
  assert (Z0 : INR 0 * Q2R (ts g) = 0) by (cbn; ring).
  assert (LEN0 : length s0 = dim g /\ length (c_input (last l0 no_column)) = dim g).
  { unfold s0. rewrite LAST0. apply (L2 (k * m)%nat). lia. }
  assert (S0 : s0 = map (fun i => course g a (phase g k) 0 i 0) (seq 0 (dim g))).
  { symmetry. apply map_seq_nth; [apply LEN0|]. intros i Hi. rewrite LS. destruct (SR i Hi) as [X _]. rewrite <- X.
    symmetry. apply course_rel, rel_phase; assumption. }
  assert (I0 : c_input (last l0 no_column) = map (fun i => course g a (phase g k) 1 i 0) (seq 0 (dim g))).
  { symmetry. apply map_seq_nth; [apply LEN0|]. intros i Hi. rewrite LI. destruct (SR i Hi) as [_ X]. rewrite <- X.
    symmetry. apply course_rel, rel_phase; assumption. }
  assert (PIN : forall q, (q <= m)%nat -> c_input (nth q p no_column) =
     map (fun i => course g a (phase g k) 1 i (INR q * Q2R (ts g))) (seq 0 (dim g))).
  { intros q Q. destruct (PC q Q) as (_ & _ & X & _). rewrite X. apply SI. }
  assert (PST : forall q, (q <= m)%nat -> c_state (nth q p no_column) =
     map (fun i => course g a (phase g k) 0 i (INR q * Q2R (ts g))) (seq 0 (dim g))).
  { intros q Q. destruct (PC q Q) as (_ & X & _ & _). rewrite X. apply SI. }
  assert (MCI : forall q, nth q (map c_input p) [] = c_input (nth q p no_column)).
  { intros q. change (@nil R) with (c_input no_column). apply map_nth. }
  (* states of the integrated branch *)
  assert (INT : ideal_update g = false -> forall q, (S q <= m)%nat ->
     next_state g m p s0 (S q) = trapezoid (Q2R (ts g)) (next_state g m p s0 q) (c_input (nth q p no_column)) (c_input (nth (S q) p no_column))).
  { intros F q Q. unfold next_state. rewrite F. rewrite integrate_step by (rewrite ?map_length; lia).
    rewrite !MCI. reflexivity. }
  assert (ST0 : ideal_update g = false -> next_state g m p s0 0 = s0).
  { intros F. unfold next_state. rewrite F. apply integrate_0. }
  assert (SLEN : forall q, (q <= m)%nat -> length (next_state g m p s0 q) = dim g).
  { destruct (ideal_update g) eqn:F.
    - intros q Q. unfold next_state. rewrite F, PST by exact Q. rewrite map_length, seq_length. reflexivity.
    - induction q as [|q IH]; intros Q; [rewrite ST0 by reflexivity; apply LEN0|].
      rewrite INT by (auto; lia). apply trapezoid_length; [apply IH; lia| |]; rewrite PIN by lia; rewrite map_length, seq_length; reflexivity. }
  (* columns of the last pass, including its first one *)
  assert (COL : forall q, (q <= m)%nat -> c_input (nth (k * m + q) l no_column) = c_input (nth q p no_column) /\
     (ideal_update g = false \/ (1 <= q)%nat -> c_state (nth (k * m + q) l no_column) = next_state g m p s0 q) /\
     (c_time (nth (k * m + q) l no_column) == inject_Z (Z.of_nat (k * m + q)) * ts g)%Q).
  { intros q Q. destruct (Nat.eq_dec q 0) as [E|E].
    - subst q. rewrite Nat.add_0_r, AT0. split; [|split].
      + rewrite PIN by lia. rewrite I0. apply map_ext. intros i. rewrite Z0. reflexivity.
      + intros [F|F]; [rewrite ST0 by exact F; reflexivity|lia].
      + rewrite LAST0. apply L2. lia.
    - rewrite NEW by lia. cbn [c_time c_state c_input]. split; [reflexivity|]. split; [reflexivity|].
      destruct (PC q Q) as (X & _). rewrite X, NW, S3, Nat2Z.inj_add, Nat2Z.inj_mul, inject_Z_plus, inject_Z_mult. ring. }
  assert (EV : forall j, (j < length l)%nat -> (j < length l0)%nat \/ exists q, (1 <= q <= m)%nat /\ j = (k * m + q)%nat).
  { intros j J. rewrite LL, Nat.mul_succ_l in J. destruct (le_lt_dec (length l0) j) as [X|X]; [|left; exact X].
    right. exists (j - k * m)%nat. lia. }
  split; [|split; [exact OLD|split; [|split]]].
  - unfold logs. rewrite app_length. cbn [length]. fold k. replace (k + 1)%nat with (S k) by lia.
    split; [exact LL|]. split; [|split; [|split]].
    + intros j J. destruct (EV j J) as [X|(q & Q & ->)].
      * rewrite OLD by exact X. apply L2. exact X.
      * destruct (COL q ltac:(lia)) as (C1 & C2 & C3). split; [exact C3|]. rewrite C1, C2 by (right; lia).
        split; [apply SLEN; lia|]. rewrite PIN by lia. rewrite map_length, seq_length. reflexivity.
    + intros n b q N Q. apply error_snoc in N. destruct N as [[N1 N2]|[-> <-]].
      * rewrite OLD; [apply (L3 n b q N2 Q)|]. rewrite L1. fold k in N1.
        assert (S n * m <= k * m)%nat by (apply Nat.mul_le_mono_r; lia). rewrite Nat.mul_succ_l in H. lia.
      * fold k. rewrite (proj1 (COL q Q)). apply PIN, Q.
    + intros n b N. apply error_snoc in N. destruct N as [[N1 N2]|[-> <-]].
      * rewrite OLD; [apply (L4 n b N2)|]. rewrite L1. fold k in N1.
        assert (n * m <= k * m)%nat by (apply Nat.mul_le_mono_r; lia). lia.
      * fold k. rewrite AT0. exact S0.
    + destruct (ideal_update g) eqn:F.
      * intros n b q N Q. apply error_snoc in N. destruct N as [[N1 N2]|[-> <-]].
        -- rewrite OLD; [apply (L5 n b q N2 Q)|]. rewrite L1. fold k in N1.
           assert (S n * m <= k * m)%nat by (apply Nat.mul_le_mono_r; lia). rewrite Nat.mul_succ_l in H. lia.
        -- fold k. destruct (Nat.eq_dec q 0) as [E|E].
           ++ subst q. rewrite Nat.add_0_r, AT0. fold s0. rewrite S0. apply map_ext. intros i. rewrite Z0. reflexivity.
           ++ destruct (COL q Q) as (_ & C2 & _). rewrite C2 by (right; lia). unfold next_state. rewrite F. apply PST, Q.
      * intros j J. destruct (EV (S j) J) as [X|(q & Q & E)].
        -- rewrite !OLD by lia. apply L5. exact X.
        -- assert (j = k * m + (q - 1))%nat by lia. rewrite E, H.
           destruct (COL q ltac:(lia)) as (C1 & C2 & _). destruct (COL (q - 1)%nat ltac:(lia)) as (D1 & D2 & _).
           rewrite C1, C2, D1, D2 by (left; reflexivity).
           pose proof (INT eq_refl (q - 1)%nat ltac:(lia)) as K. replace (S (q - 1)) with q in K by lia. exact K.
  - rewrite LASTL. apply COL. lia.
  - rewrite LASTL. destruct (COL m ltac:(lia)) as (_ & C2 & _). rewrite C2 by (right; lia). unfold next_state.
    destruct (ideal_update g); [reflexivity|]. rewrite AT0.
    assert (LI2 := Timing_Proofs.last_nth (integrate (Q2R (ts g)) m s0 (map c_input p)) []).
    rewrite integrate_length in LI2. unfold s0 in *. rewrite LI2. f_equal. lia.
  - rewrite LASTL. destruct (COL m ltac:(lia)) as (_ & _ & C3). rewrite C3, NW, S3, Nat2Z.inj_add, Nat2Z.inj_mul, inject_Z_plus, inject_Z_mult. ring.
Qed.

Theorem loop_log : forall g m (P : world -> answer -> Prop) s0 i0 obs as_, steady g m -> consistent g -> length s0 = dim g -> length i0 = dim g ->
  (forall w a, P w a -> starts_right g w a) -> Forall (proper_answer g) as_ ->
  all_answers P g as_ (world0 s0 i0 obs) ->
  exists w, passes g as_ (world0 s0 i0 obs) = Some w /\
    (as_ = [] /\ w = world0 s0 i0 obs \/
     exists l p, going g m (length as_) w l p /\ logs g m as_ l /\
       c_state (nth 0 l no_column) = s0 /\ c_input (nth 0 l no_column) = i0) /\
    obstacles w = map (obstacle_after g (length as_)) obs /\
    (forall n a, nth_error as_ n = Some a -> exists w1, P w1 a /\
       (now w1 == inject_Z (Z.of_nat n) * upd g)%Q /\ (start_time w1 == 0)%Q /\
       obstacles w1 = map (obstacle_after g n) obs).
Proof.
  intros g m P s0 i0 obs as_ ST CO LS LI PS. pose proof ST as (S1 & S2 & S3 & _).
  induction as_ as [|a as_ IH] using rev_ind; intros FA AA.
  - exists (world0 s0 i0 obs). split; [reflexivity|]. split; [left; split; reflexivity|]. split.
    + cbn. rewrite map_id. reflexivity.
    + intros [|n] a E; discriminate.
  - apply Forall_app in FA. destruct FA as [FA PA]. apply Forall_inv in PA.
    apply all_snoc in AA. destruct AA as [AA NA].
    destruct (IH FA AA) as (w & E & H & O & W). specialize (NA w E).
    (* the prepared world *)
    assert (PW : exists w1, prepared g w = Some w1 /\ (now w1 == inject_Z (Z.of_nat (length as_)) * upd g)%Q /\
      (start_time w1 == 0)%Q /\ iteration0 w1 = false /\ obstacles w1 = obstacles w /\
      (as_ = [] /\ log w1 = None /\ p_state w1 = s0 /\ p_input w1 = i0 \/
       exists l, log w1 = Some l /\ logs g m as_ l /\ c_state (last l no_column) = p_state w1 /\
         c_input (last l no_column) = p_input w1 /\ c_state (nth 0 l no_column) = s0 /\ c_input (nth 0 l no_column) = i0)).
    { destruct H as [[-> ->]|(l & p & G & L & H1 & H2)].
      - eexists. split; [apply prepared_first|]. cbn [now start_time iteration0 obstacles log p_state p_input length].
        split; [change (inject_Z (Z.of_nat 0)) with 0%Q; ring|]. split; [reflexivity|]. split; [reflexivity|]. split; [reflexivity|].
        left. repeat split; reflexivity.
      - destruct as_ as [|b as_].
        + (* no pass yet: there is no log *)
          exfalso. cbn in E. injection E as <-. destruct G as (G & _). discriminate.
        + assert (TL : (c_time (last l no_column) == now w)%Q).
          { destruct L as (L1 & L2 & _). destruct G as (_ & _ & G & _). rewrite Timing_Proofs.last_nth, G.
            destruct (L2 (length l - 1)%nat ltac:(lia)) as [X _]. rewrite X, L1.
            replace (length (b :: as_) * m + 1 - 1)%nat with (length (b :: as_) * m)%nat by lia.
            rewrite S3, Nat2Z.inj_mul, inject_Z_mult. ring. }
          eexists. split; [apply (prepared_going g m (length (b :: as_)) w l p ST CO); [cbn; lia|exact G|apply L|exact TL]|].
          cbn [now start_time iteration0 obstacles log p_state p_input].
          destruct G as (G1 & G2 & G3 & G4 & G5 & G6 & _).
          split; [exact G3|]. split; [exact G6|]. split; [reflexivity|]. split; [reflexivity|].
          right. exists l. split; [reflexivity|]. split; [exact L|]. repeat split; assumption. }
    destruct PW as (w1 & PR & NW & SW & IT & OW & LG).
    pose proof (NA w1 PR) as PA1. pose proof (PS w1 a PA1) as SR.
    destruct (update_shape g m a w w1 ST PA PR) as (p & PL & PC & UE).
    (* the log before the new columns *)
    assert (L0 : logs g m as_ (started w1 p) /\ c_state (last (started w1 p) no_column) = p_state w1 /\
       c_input (last (started w1 p) no_column) = p_input w1 /\
       c_state (nth 0 (started w1 p) no_column) = s0 /\ c_input (nth 0 (started w1 p) no_column) = i0).
    { unfold started. destruct LG as [(-> & -> & <- & <-)|(l & -> & L & A & B & C & D)].
      - destruct p as [|c p]; [cbn in PL; lia|]. cbn [firstn last nth].
        destruct (PC 0%nat ltac:(lia)) as (P1 & P2 & P3 & _). cbn [nth] in P1, P2, P3.
        assert (Z0 : INR 0 * Q2R (ts g) = 0) by (cbn; ring).
        assert (CS : c_state c = p_state w1).
        { rewrite P2. apply map_seq_nth; [exact LS|]. intros i Hi. rewrite Z0. apply SR, Hi. }
        assert (CI : c_input c = p_input w1).
        { rewrite P3. apply map_seq_nth; [exact LI|]. intros i Hi. rewrite Z0. apply SR, Hi. }
        split; [|repeat split; assumption].
        split; [reflexivity|]. split; [|split; [intros [|n] b q X; discriminate|split; [intros [|n] b X; discriminate|]]].
        + intros j J. cbn in J. assert (j = 0)%nat by lia. subst j. cbn [nth]. rewrite CS, CI. split; [|split; assumption].
          rewrite P1, NW. change (inject_Z (Z.of_nat 0)) with 0%Q. cbn [length]. change (inject_Z (Z.of_nat 0)) with 0%Q. ring.
        + destruct (ideal_update g); [intros [|n] b q X; discriminate|]. intros j J. cbn in J. lia.
      - split; [exact L|]. repeat split; assumption. }
    destruct L0 as (L0 & LS0 & LI0 & FS & FI).
    destruct (step_log g m as_ a w1 p (started w1 p) ST NW SW PL PC L0 LS0 LI0 SR) as (LN & OLD & LIN & LSN & LT).
    set (l := started w1 p ++ appended g m p (c_state (last (started w1 p) no_column))) in *.
    assert (LZ : (0 < length (started w1 p))%nat) by (destruct L0 as (X & _); rewrite X; lia).
    assert (PE : pass g a w = Some (mkW (now w1 + upd g) (now w1) (iteration0 w1) (start_time w1) (Some l) (Some p)
        (p_state w1) (p_input w1) (map (simulate_obstacle g (upd g)) (obstacles w1)))).
    { unfold pass. rewrite UE. unfold advance. cbn [log now dep_now iteration0 start_time plan p_state p_input obstacles].
      assert (RA : Timing_Model.run_arg (ts g) (upd g) false (c_time (last l no_column) - now w1) = None).
      { unfold Timing_Model.run_arg. unfold Grid_Model.Qltb.
        assert (X : Qle_bool (upd g - (c_time (last l no_column) - now w1)) (ts g) = true).
        { apply Qle_bool_iff. rewrite LT. Lqa.lra. }
        rewrite X. reflexivity. }
      rewrite RA. reflexivity. }
    eexists. split; [rewrite passes_snoc, E; exact PE|]. rewrite app_length. cbn [length].
    replace (length as_ + 1)%nat with (S (length as_)) by lia.
    split; [|split].
    + right. exists l, p. split; [|split; [exact LN|]].
      * unfold going. cbn [log plan now dep_now iteration0 start_time].
        split; [reflexivity|]. split; [reflexivity|].
        split; [rewrite NW, Nat2Z.inj_succ, <- Z.add_1_r, inject_Z_plus; ring|].
        split; [reflexivity|]. split; [exact IT|]. split; [exact SW|]. split; [exact PL|]. split; [exact LIN|].
        rewrite LSN. replace (S (length as_) - 1)%nat with (length as_) by lia. reflexivity.
      * rewrite OLD by exact LZ. split; assumption.
    + cbn [obstacles obstacle_after]. rewrite OW, O, map_map. reflexivity.
    + intros n b N. apply error_snoc in N. destruct N as [[_ N]|[-> <-]]; [apply W, N|].
      exists w1. split; [exact PA1|]. split; [exact NW|]. split; [exact SW|]. rewrite OW. exact O.
Qed.
