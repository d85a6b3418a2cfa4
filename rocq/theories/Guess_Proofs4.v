(** From the guesses to the variables of the problem. *)
From Coq Require Import String Reals List Arith Bool Lia Lra.
From Verif Require Import Spline_Model Spline_Spec Splop_Spec Lift_Spec.
From Verif Require Import Guess_Model Guess_Spec Guess_Proofs Guess_Proofs2 Guess_Proofs3.
From Verif Require Angle_Model Geom_Model Geom_Spec Geom_Proofs3.
Import ListNotations.
Local Open Scope R_scope.
Local Notation length := List.length.

Lemma set_var_same : forall i k a m, set_var i k a m i k = a.
Proof. intros. unfold set_var. rewrite !Nat.eqb_refl. reflexivity. Qed.
Lemma set_var_other : forall i k a m i' k', i' <> i \/ k' <> k -> set_var i k a m i' k' = m i' k'.
Proof.
  intros i k a m i' k' H. unfold set_var. destruct (Nat.eqb_spec i' i), (Nat.eqb_spec k' k); cbn; try reflexivity. lia.
Qed.
Lemma set_segments_spec : forall i g n k m, (forall j, (k <= j < k + n)%nat -> item g j <> None) ->
  exists m', set_segments i g k n m = Ok m' /\
    (forall j, (k <= j < k + n)%nat -> item g j = Some (m' i j)) /\
    (forall i' j, i' <> i \/ ~ (k <= j < k + n)%nat -> m' i' j = m i' j).
Proof.
  intros i g n. induction n as [|n IH]; intros k m H.
  - exists m. split; [reflexivity|]. split; [intros; lia|auto].
  - cbn [set_segments]. destruct (item g k) as [a|] eqn:E; [|exfalso; exact (H k ltac:(lia) E)].
    destruct (IH (S k) (set_var i k a m)) as (m' & M & A & B). { intros j J. apply H. lia. }
    exists m'. split; [exact M|]. split.
    + intros j J. destruct (Nat.eq_dec j k) as [->|N]; [|apply A; lia]. rewrite B by lia. rewrite set_var_same. exact E.
    + intros i' j O. rewrite B by lia. apply set_var_other. lia.
Qed.
Lemma set_segments_raise : forall i g n k m m', set_segments i g k n m = Ok m' -> forall j, (k <= j < k + n)%nat -> item g j <> None.
Proof.
  intros i g n. induction n as [|n IH]; intros k m m' H j J; [lia|]. cbn [set_segments] in H.
  destruct (item g k) as [a|] eqn:E; [|discriminate]. destruct (Nat.eq_dec j k) as [->|N]; [rewrite E; discriminate|].
  apply (IH (S k) _ m' H). lia.
Qed.

(* exactly the vehicles with a guess for every segment can be reinitialised *)
Lemma reinit_from : forall vs i m, (forall v, In v vs -> exists g n, guessed v g n) ->
  exists m', reinitialize i vs m = Ok m' /\
    (forall k v, nth_error vs k = Some v -> exists g n, guessed v g n /\
       forall j, ((j < n)%nat -> item g j = Some (m' (i + k)%nat j)) /\ ((n <= j)%nat -> m' (i + k)%nat j = m (i + k)%nat j)) /\
    (forall i' j, (i' < i \/ i + length vs <= i')%nat -> m' i' j = m i' j).
Proof.
  intros vs. induction vs as [|v r IH]; intros i m H.
  - exists m. split; [reflexivity|]. split; [intros [|k] v E; discriminate|auto].
  - destruct (H v (or_introl eq_refl)) as (g & n & G & S & I). cbn [reinitialize]. rewrite G, S.
    destruct (set_segments_spec i g n 0 m) as (m1 & M1 & A1_ & B1). { intros j J. apply I. lia. }
    rewrite M1. destruct (IH (Datatypes.S i) m1) as (m' & M & A & B). { intros u U. apply H. right. exact U. }
    exists m'. split; [exact M|]. split.
    + intros [|k] u E; cbn [nth_error] in E.
      * injection E as <-. exists g, n. split; [repeat split; auto|]. intros j. rewrite Nat.add_0_r. split; intros J.
        -- rewrite B by lia. apply A1_. lia.
        -- rewrite B by lia. apply B1. lia.
      * destruct (A k u E) as (g' & n' & G' & J'). exists g', n'. split; [exact G'|]. intros j. destruct (J' j) as [X Y].
        replace (i + Datatypes.S k)%nat with (Datatypes.S i + k)%nat by lia. split; [exact X|]. intros L. rewrite (Y L). apply B1. lia.
    + intros i' j O. cbn [length] in O. rewrite B by lia. apply B1. lia.
Qed.
Theorem reinit_spec : forall vs m, (forall v, In v vs -> exists g n, guessed v g n) ->
  exists m', reinitialize 0 vs m = Ok m' /\
    forall i v, nth_error vs i = Some v -> exists g n, guessed v g n /\
      forall j, ((j < n)%nat -> item g j = Some (m' i j)) /\ ((n <= j)%nat -> m' i j = m i j).
Proof.
  intros vs m H. destruct (reinit_from vs 0 m H) as (m' & M & A & _). exists m'. split; [exact M|]. exact A.
Qed.
Theorem reinit_raises : forall vs i m m', reinitialize i vs m = Ok m' -> forall v, In v vs -> exists g n, guessed v g n.
Proof.
  intros vs. induction vs as [|u r IH]; intros i m m' H v V; [destruct V|]. cbn [reinitialize] in H.
  destruct (init_value u None) as [g|] eqn:E; [|discriminate]. destruct (v_seg u) as [n|] eqn:S; [|discriminate].
  destruct (set_segments i g 0 n m) as [m1|] eqn:M; [|discriminate]. destruct V as [<-|V]; [|exact (IH _ _ _ H v V)].
  exists g, n. split; [exact E|]. split; [exact S|]. intros j J. apply (set_segments_raise _ _ _ _ _ _ M). lia.
Qed.

(* rooms *)
Lemma centres_spec : forall rooms n, length rooms = S n -> Forall upright rooms ->
  (forall j, (j < n)%nat -> overlap (nth j rooms room0) (nth (S j) rooms room0)) ->
  exists sub, centres n rooms = Ok sub /\ length sub = n /\
    forall j, (j < n)%nat -> within (nth j rooms room0) (nth j sub (0, 0)) /\ within (nth (S j) rooms room0) (nth j sub (0, 0)).
Proof.
  intros rooms n. revert rooms. induction n as [|n IH]; intros rooms L U O.
  - exists []. split; [reflexivity|]. split; [reflexivity|]. intros; lia.
  - destruct rooms as [|[s1 p1] [|[s2 p2] r]]; cbn [length] in L; try lia. cbn [centres].
    pose proof (Forall_inv U) as U1. pose proof (Forall_inv (Forall_inv_tail U)) as U2. unfold upright in U1, U2. cbn [fst snd] in U1, U2.
    pose proof (Geom_Proofs3.center_spec s1 p1 s2 p2 (proj1 U1) (proj1 U2) (proj1 (proj2 U1)) (proj2 (proj2 U1)) (proj1 (proj2 U2)) (proj2 (proj2 U2))) as C.
    destruct (O 0%nat ltac:(lia)) as (z & Z). cbn [nth] in Z.
    destruct (Geom_Model.overlap_center s1 p1 s2 p2) as [c|]; [|exfalso; exact (C z Z)]. destruct C as (C1 & C2 & _).
    destruct (IH ((s2, p2) :: r)) as (sub & E & LS & W); [cbn [length]; lia|exact (Forall_inv_tail U)| |].
    { intros j J. exact (O (S j) ltac:(lia)). }
    rewrite E. exists (c :: sub). split; [reflexivity|]. split; [cbn [length]; lia|].
    intros [|j] J; [cbn [nth]; split; [exact C1|exact C2]|]. exact (W j ltac:(lia)).
Qed.
Lemma box_between : forall p w h x y u v t, 0 <= t <= 1 -> Geom_Spec.in_box p w h (x, y) -> Geom_Spec.in_box p w h (u, v) ->
  Geom_Spec.in_box p w h (x + t * (u - x), y + t * (v - y)).
Proof.
  intros p w h x y u v t T [A B] [C D]. cbn [fst snd] in *. rewrite Geom_Proofs3.Rabs_le_iff in *.
  split; cbn [fst snd]; apply Geom_Proofs3.Rabs_le_iff; nra.
Qed.
Lemma sweep_unit : forall f x, sweep f -> 0 <= x <= 1 -> 0 <= f x <= 1.
Proof.
  intros f x (A & B & M) I. pose proof (M 0 x ltac:(lra) (proj1 I) (proj2 I)). pose proof (M x 1 (proj1 I) (proj2 I) ltac:(lra)). lra.
Qed.
Lemma corner_first : forall p via q, corner p via q 0 = p.
Proof. reflexivity. Qed.
Lemma corner_via : forall p via q j, (j < length via)%nat -> corner p via q (S j) = vec (nth j via (0, 0)).
Proof.
  intros p via q j J. unfold corner. change (nth (S j) (p :: map vec via ++ [q]) q) with (nth j (map vec via ++ [q]) q).
  rewrite app_nth1 by (rewrite map_length; exact J). rewrite (nth_indep _ q (vec (0, 0))) by (rewrite map_length; exact J). apply map_nth.
Qed.
Lemma corner_last : forall p via q, corner p via q (S (length via)) = q.
Proof.
  intros p via q. unfold corner. change (nth (S (length via)) (p :: map vec via ++ [q]) q) with (nth (length via) (map vec via ++ [q]) q).
  rewrite app_nth2 by (rewrite map_length; lia). rewrite map_length, Nat.sub_diag. reflexivity.
Qed.
Lemma frames_from : forall n rooms vs i m, (2 <= n)%nat -> length rooms = n -> Forall upright rooms ->
  (forall j, (S j < n)%nat -> overlap (nth j rooms room0) (nth (S j) rooms room0)) ->
  (forall v, In v vs -> exists b s g, v = Single Holonomic b (Some n) s g /\ good_basis b) ->
  exists m' via, reinitialize_frames n i rooms vs m = Ok m' /\ length via = (n - 1)%nat /\
    (forall j, (S j < n)%nat -> within (nth j rooms room0) (nth j via (0, 0)) /\ within (nth (S j) rooms room0) (nth j via (0, 0))) /\
    (forall k b s g, nth_error vs k = Some (Single Holonomic b (Some n) s g) -> exists f, sweep f /\
       forall j, (j < n)%nat -> along b (columns_of (m' (i + k)%nat j)) 2 (corner s via g j) (corner s via g (S j)) f) /\
    (forall i' j, (i' < i \/ i + length vs <= i' \/ n <= j)%nat -> m' i' j = m i' j).
Proof.
  intros n rooms vs i m N L U O V.
  destruct (centres_spec rooms (n - 1)) as (via & C & LV & W); [lia|exact U|intros j J; apply O; lia|].
  assert (G : forall i m, exists m', reinitialize_frames n i rooms vs m = Ok m' /\
    (forall k b s g, nth_error vs k = Some (Single Holonomic b (Some n) s g) -> exists f, sweep f /\
       forall j, (j < n)%nat -> along b (columns_of (m' (i + k)%nat j)) 2 (corner s via g j) (corner s via g (S j)) f) /\
    (forall i' j, (i' < i \/ i + length vs <= i' \/ n <= j)%nat -> m' i' j = m i' j)).
  { clear i m. induction vs as [|v r IH]; intros i m.
    - exists m. split; [reflexivity|]. split; [intros [|k] b s g E; discriminate|auto].
    - destruct (V v (or_introl eq_refl)) as (b & s & g & -> & GB). cbn [reinitialize_frames]. rewrite C.
      destruct (guess_segments b n s g via GB ltac:(lia)) as (l & f & E & F & LL & A). rewrite E.
      destruct (set_segments_spec i (GList l) n 0 m) as (m1 & M1 & A1_ & B1).
      { intros j J. cbn [item]. apply nth_error_Some. lia. }
      rewrite M1. destruct (IH ltac:(intros u X; apply V; right; exact X) (S i) m1) as (m' & M & A' & B').
      exists m'. split; [exact M|]. split.
      + intros [|k] b' s' g' E'; cbn [nth_error] in E'.
        * injection E' as <- <- <-. exists f. split; [exact F|]. intros j J. rewrite Nat.add_0_r, B' by lia.
          apply A. apply (A1_ j). lia.
        * destruct (A' k b' s' g' E') as (f' & F' & K'). exists f'. split; [exact F'|]. intros j J.
          replace (i + S k)%nat with (S i + k)%nat by lia. apply K', J.
      + intros i' j Q. cbn [length] in Q. rewrite B' by lia. apply B1. lia. }
  destruct (G i m) as (m' & M & A & B). exists m', via. split; [exact M|]. split; [lia|]. split; [intros j J; apply W; lia|]. auto.
Qed.
Theorem frames_spec : forall n rooms vs m, (2 <= n)%nat -> length rooms = n -> Forall upright rooms ->
  (forall j, (S j < n)%nat -> overlap (nth j rooms room0) (nth (S j) rooms room0)) ->
  (forall v, In v vs -> exists b s g, v = Single Holonomic b (Some n) s g /\ good_basis b /\
     within (nth 0 rooms room0) (s 0%nat, s 1%nat) /\ within (nth (n - 1) rooms room0) (g 0%nat, g 1%nat)) ->
  exists m', reinitialize_frames n 0 rooms vs m = Ok m' /\
  forall i b s g, nth_error vs i = Some (Single Holonomic b (Some n) s g) ->
    let at_ j k x := curve b (nth k (columns_of (m' i j)) []) 0 x in
    (forall j x, (j < n)%nat -> 0 <= x <= 1 -> within (nth j rooms room0) (at_ j 0%nat x, at_ j 1%nat x)) /\
    (forall k, (k < 2)%nat -> at_ 0%nat k 0 = s k /\ at_ (n - 1)%nat k 1 = g k /\
       forall j, (S j < n)%nat -> at_ j k 1 = at_ (S j) k 0).
Proof.
  intros n rooms vs m N L U O V.
  destruct (frames_from n rooms vs 0 m N L U O) as (m' & via & M & LV & W & A & _).
  { intros v X. destruct (V v X) as (b & s & g & E & G & _). exists b, s, g. auto. }
  exists m'. split; [exact M|]. intros i b s g E. cbv zeta.
  destruct (V _ (nth_error_In _ _ E)) as (b' & s' & g' & E' & G & I0 & I1). injection E' as <- <- <-.
  destruct (A i b s g E) as (f & F & K). cbn [Nat.add] in K.
  assert (CN : forall j, (j < n)%nat -> within (nth j rooms room0) (corner s via g j 0%nat, corner s via g j 1%nat) /\
                                        within (nth j rooms room0) (corner s via g (S j) 0%nat, corner s via g (S j) 1%nat)).
  { intros j J. split.
    - destruct j as [|j]; [exact I0|]. rewrite corner_via by lia. destruct (W j ltac:(lia)) as [_ Y]. unfold vec. cbn [Nat.eqb].
      destruct (nth j via (0, 0)). exact Y.
    - destruct (Nat.eq_dec (S j) n) as [Q|Q].
      + replace (S j) with (S (length via)) by lia. rewrite corner_last. replace j with (n - 1)%nat by lia. exact I1.
      + rewrite corner_via by lia. destruct (W j ltac:(lia)) as [Y _]. unfold vec. cbn [Nat.eqb]. destruct (nth j via (0, 0)). exact Y. }
  split.
  - intros j x J X. destruct (K j J) as [_ C]. rewrite (C 0%nat x), (C 1%nat x) by (auto; lia). destruct (CN j J) as [P Q].
    apply box_between; auto. apply sweep_unit; auto.
  - intros k Hk. destruct F as (F0 & F1 & _). split; [|split].
    + destruct (K 0%nat ltac:(lia)) as [_ C]. rewrite C by (auto; lra). rewrite F0, corner_first. ring.
    + destruct (K (n - 1)%nat ltac:(lia)) as [_ C]. rewrite C by (auto; lra). rewrite F1. replace (S (n - 1)) with (S (length via)) by lia.
      rewrite corner_last. ring.
    + intros j J. destruct (K j ltac:(lia)) as [_ C]. destruct (K (S j) J) as [_ C']. rewrite C, C' by (auto; lra). rewrite F0, F1. ring.
Qed.
