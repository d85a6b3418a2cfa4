(** Formations in one problem. *)
From Coq Require Import Reals List Arith Lia Lra String Bool.
From Verif Require Import Spline_Model Spline_Spec Splop_Spec Vehicle_Model Vehicle_Spec Lift_Model Lift_Spec Lift_Proofs Lift_Proofs2 Lift_Proofs3 Geom_Spec
  Team_Model Team_Proofs Team_Proofs2.
From Verif Require Fleet_Model Fleet_Spec Fleet_Proofs.
Import ListNotations.
Local Open Scope list_scope.
Local Notation length := List.length.
Local Open Scope R_scope.

Lemma both_now : forall X cs e lo hi tau, 0 <= tau <= 1 -> solved 0 X cs -> In (Con e (Some lo) hi) cs -> fits X e -> mentions e = true ->
  lo <= sval (jets X tau) e <= hi.
Proof.
  intros X cs e lo hi tau I Sl Hin Fe Me.
  pose proof (lift_close 0 X (Con e (Some lo) hi) tau (Rle_refl 0) Fe Me I (solved_one _ _ _ _ Sl Hin)) as [L U].
  cbn [clo chi cexpr] in U, L. rewrite drift_0 in U, L. lra.
Qed.
Lemma linked_same : forall E (f : nat -> R) u v, Fleet_Spec.linked E u v -> (forall a b, In (a, b) E -> f a = f b) -> f u = f v.
Proof.
  intros E f u v L H. induction L as [v|u v w _ IH Hin|u v w _ IH Hin]; [reflexivity| |].
  - rewrite IH. apply H. exact Hin.
  - rewrite IH. symmetry. apply H. exact Hin.
Qed.
Lemma central_links : forall s N nb c, Fleet_Model.neighbours s N = Some nb -> (s = "circular"%string -> (3 <= N)%nat) ->
  Fleet_Model.central_couples s nb N = Some c -> Fleet_Spec.spans N (Fleet_Model.pairs_of N c).
Proof.
  intros s N nb c Hn Hc E. unfold Fleet_Model.neighbours in Hn. destruct (String.eqb s "circular") eqn:E1.
  - apply String.eqb_eq in E1. subst s. injection Hn as <-. exact (Fleet_Proofs.central_spans N c (Hc eq_refl) E).
  - destruct (String.eqb s "full") eqn:E2; [|discriminate]. apply String.eqb_eq in E2. subst s. injection Hn as <-.
    exact (Fleet_Proofs.central_full N c E).
Qed.
Lemma pairs_in : forall N c u v, In (u, v) (Fleet_Model.pairs_of N c) <-> (u < N)%nat /\ In v (c u).
Proof.
  intros N c u v. unfold Fleet_Model.pairs_of. rewrite in_flat_map. split.
  - intros (x & Hx & H). apply in_map_iff in H as (y & E & H). injection E as <- <-. apply in_seq in Hx. split; [lia|exact H].
  - intros [H1 H2]. exists u. split; [apply in_seq; lia|]. apply in_map. exact H2.
Qed.
Lemma circ_below : forall N l k, (0 < N)%nat -> In k (Fleet_Model.circ N l) -> (k < N)%nat.
Proof. intros N l k P [<-|[<-|[]]]; apply Nat.mod_upper_bound; lia. Qed.
Lemma central_below : forall s N nb c u v, Fleet_Model.neighbours s N = Some nb -> Fleet_Model.central_couples s nb N = Some c ->
  In (u, v) (Fleet_Model.pairs_of N c) -> (u < N)%nat /\ (v < N)%nat.
Proof.
  intros s N nb c u v Hn E H. apply pairs_in in H as [Hu Hv]. split; [exact Hu|].
  assert (C : In v (Fleet_Model.couples_of nb N u)).
  { unfold Fleet_Model.central_couples in E. destruct (String.eqb s "circular").
    - destruct N as [|[|n]]; try discriminate. injection E as <-. destruct ((u =? S n) || (u =? n))%nat; [destruct Hv|exact Hv].
    - injection E as <-. exact Hv. }
  apply Fleet_Proofs.couples_in in C as [_ C]. unfold Fleet_Model.neighbours in Hn.
  destruct (String.eqb s "circular"); [injection Hn as <-; apply (circ_below N u); [lia|exact C]|].
  destruct (String.eqb s "full"); [|discriminate]. injection Hn as <-. apply Fleet_Proofs.full_in in C. lia.
Qed.

Definition centre (X : nat -> bspline) (tau : R) (pos : nat -> nat -> sx) (conf : nat -> list R) (k v : nat) : R :=
  sval (jets X tau) (pos v k) - nth k (conf v) 0.
Lemma centre_val : forall X tau pos conf k v, (k < length (conf v))%nat ->
  sval (jets X tau) (centre_sx (pos v) (conf v) k) = centre X tau pos conf k v.
Proof.
  intros X tau pos conf k v H. unfold centre_sx, centre. cbn [sval]. unfold Fleet_Model.rel_pos_c.
  rewrite (nth_indep _ 0 (Ropp 0)) by (rewrite map_length; exact H). rewrite map_nth. lra.
Qed.

(* exact formation at all times *)
Theorem central_keeps : forall s N d pos conf cs X tau u v k,
  central_cons None s N d pos conf = Some cs -> (s = "circular"%string -> (3 <= N)%nat) -> solved 0 X cs ->
  (forall a i, (a < N)%nat -> (i < d)%nat -> fits X (pos a i) /\ mentions (pos a i) = true) ->
  (forall a, (a < N)%nat -> length (conf a) = d) -> 0 <= tau <= 1 -> (u < N)%nat -> (v < N)%nat -> (k < d)%nat ->
  let at_ e := sval (jets X tau) e in
  at_ (pos u k) - at_ (pos v k) = nth k (conf u) 0 - nth k (conf v) 0.
Proof.
  intros s N d pos conf cs X tau u v k HC Hs Sv F L I Hu Hv Hk at_. unfold central_cons in HC.
  destruct (Fleet_Model.neighbours s N) as [nb|] eqn:Hn; [|discriminate].
  destruct (Fleet_Model.central_couples s nb N) as [c|] eqn:Hc; [|discriminate]. injection HC as <-.
  cut (centre X tau pos conf k u = centre X tau pos conf k v); [unfold centre, at_; lra|].
  apply (linked_same (Fleet_Model.pairs_of N c)); [exact (central_links s N nb c Hn Hs Hc u v Hu Hv)|].
  intros a b Hab. destruct (central_below s N nb c a b Hn Hc Hab) as [Ha Hb].
  destruct (F a k Ha Hk) as [Fa Ma]. destruct (F b k Hb Hk) as [Fb Mb].
  assert (K := both_now X _ (centre_sx (pos a) (conf a) k - centre_sx (pos b) (conf b) k)%sx 0 0 tau I Sv).
  cbn [sval] in K. rewrite !centre_val in K by (rewrite L; assumption).
  cut (0 <= centre X tau pos conf k a - centre X tau pos conf k b <= 0); [lra|]. apply K.
  - apply in_flat_map. exists (a, b). split; [exact Hab|]. apply in_map_iff. exists k. split; [reflexivity|]. apply in_seq. lia.
  - unfold centre_sx. cbn [fits]. auto.
  - unfold centre_sx. cbn [mentions]. rewrite Ma. reflexivity.
Qed.

(* soft formation *)
Lemma chain : forall (f : nat -> R) e n, (forall i, (i < n)%nat -> Rabs (f i - f (S i)) <= e) ->
  forall k, (k <= n)%nat -> forall j, (j <= k)%nat -> Rabs (f j - f k) <= INR (k - j) * e.
Proof.
  intros f e n H k. induction k as [|k IH]; intros Hk j Hj.
  - replace j with 0%nat by lia. replace (f 0%nat - f 0%nat) with 0 by lra. rewrite Rabs_R0. cbn. lra.
  - destruct (Nat.eq_dec j (S k)) as [->|N].
    + replace (f (S k) - f (S k)) with 0 by lra. rewrite Rabs_R0, Nat.sub_diag. cbn. lra.
    + specialize (IH ltac:(lia) j ltac:(lia)). specialize (H k ltac:(lia)).
      replace (S k - j)%nat with (S (k - j)) by lia. rewrite S_INR.
      replace (f j - f (S k)) with ((f j - f k) + (f k - f (S k))) by lra.
      pose proof (Rabs_triang (f j - f k) (f k - f (S k))). lra.
Qed.
Lemma Rabs_flip : forall a b, Rabs (a - b) = Rabs (b - a).
Proof. intros a b. rewrite <- Rabs_Ropp. f_equal. lra. Qed.
Lemma circ_spread : forall N (f : nat -> R) e c, (3 <= N)%nat -> 0 <= e ->
  Fleet_Model.central_couples "circular" (Fleet_Model.circ N) N = Some c ->
  (forall a b, In (a, b) (Fleet_Model.pairs_of N c) -> Rabs (f a - f b) <= e) ->
  forall u v, (u < N)%nat -> (v < N)%nat -> Rabs (f u - f v) <= INR (N - 1) * e.
Proof.
  intros N f e c P E0 Hc H.
  destruct (Fleet_Proofs.central_circ N P) as (c' & E' & C). rewrite E' in Hc. injection Hc as <-.
  (* the vehicles in the order of the chain *)
  set (g := fun i : nat => match i with O => f (N - 1)%nat | S j => f j end).
  assert (G : forall i, (i < N - 1)%nat -> Rabs (g i - g (S i)) <= e).
  { intros i Hi. destruct i as [|i]; cbn [g].
    - rewrite Rabs_flip. apply H. apply pairs_in. split; [lia|]. rewrite C by lia. cbn. auto.
    - apply H. apply pairs_in. split; [lia|]. rewrite C by lia. destruct (Nat.eqb_spec i 0) as [->|Ni]; [cbn; auto|].
      destruct (Nat.ltb_spec (i + 2) N); [|lia]. left. lia. }
  assert (D : forall i j, (i <= N - 1)%nat -> (j <= N - 1)%nat -> Rabs (g i - g j) <= INR (N - 1) * e).
  { assert (W : forall i j, (i <= j)%nat -> (j <= N - 1)%nat -> Rabs (g i - g j) <= INR (N - 1) * e).
    { intros i j Hij Hj. pose proof (chain g e (N - 1) G j Hj i Hij) as K.
      assert (INR (j - i) <= INR (N - 1)) by (apply le_INR; lia). nra. }
    intros i j Hi Hj. destruct (le_lt_dec i j); [apply W; lia|]. rewrite Rabs_flip. apply W; lia. }
  intros u v Hu Hv.
  assert (Q : forall w, (w < N)%nat -> exists i, (i <= N - 1)%nat /\ f w = g i).
  { intros w Hw. destruct (Nat.eq_dec w (N - 1)) as [->|Nw]; [exists 0%nat; split; [lia|reflexivity]|].
    exists (S w). split; [lia|reflexivity]. }
  destruct (Q u Hu) as (i & Hi & ->). destruct (Q v Hv) as (j & Hj & ->). apply D; assumption.
Qed.
Lemma full_spread : forall N (f : nat -> R) e c, 0 <= e ->
  Fleet_Model.central_couples "full" (Fleet_Model.full N) N = Some c ->
  (forall a b, In (a, b) (Fleet_Model.pairs_of N c) -> Rabs (f a - f b) <= e) ->
  forall u v, (u < N)%nat -> (v < N)%nat -> Rabs (f u - f v) <= e.
Proof.
  intros N f e c E0 Hc H. unfold Fleet_Model.central_couples in Hc. cbn [String.eqb] in Hc. injection Hc as <-.
  assert (W : forall u v, (u < v)%nat -> (v < N)%nat -> Rabs (f u - f v) <= e).
  { intros u v Huv Hv. apply H. apply pairs_in. split; [lia|]. rewrite Fleet_Proofs.full_couples by lia. apply in_seq. lia. }
  intros u v Hu Hv. destruct (lt_eq_lt_dec u v) as [[L| ->]|L].
  - apply W; assumption.
  - replace (f v - f v) with 0 by lra. rewrite Rabs_R0. exact E0.
  - rewrite Rabs_flip. apply W; assumption.
Qed.

Theorem central_soft : forall dev eps s N d pos conf cs X tau k,
  central_cons (Some (dev, eps)) s N d pos conf = Some cs -> (s = "circular"%string -> (3 <= N)%nat) -> (2 <= N)%nat ->
  solved 0 X cs ->
  (forall a i, (a < N)%nat -> (i < d)%nat -> fits X (pos a i) /\ mentions (pos a i) = true) ->
  (forall n, fits X (eps n) /\ mentions (eps n) = true) ->
  (forall a, (a < N)%nat -> length (conf a) = d) -> 0 <= tau <= 1 -> (k < d)%nat ->
  let at_ e := sval (jets X tau) e in
  let e := at_ (eps (form_name k k)) in
  0 <= e /\ (forall m, dev = Some m -> e <= Rabs m) /\
  forall u v, (u < N)%nat -> (v < N)%nat ->
    Rabs ((at_ (pos u k) - at_ (pos v k)) - (nth k (conf u) 0 - nth k (conf v) 0))
      <= (if String.eqb s "full" then 1 else INR (N - 1)) * e.
Proof.
  intros dev eps s N d pos conf cs X tau k HC Hs N2 Sv F Fe L I Hk at_ e. unfold central_cons in HC.
  destruct (Fleet_Model.neighbours s N) as [nb|] eqn:Hn; [|discriminate].
  destruct (Fleet_Model.central_couples s nb N) as [c|] eqn:Hc; [|discriminate]. injection HC as <-.
  set (f := centre X tau pos conf k).
  assert (M : forall a b, In (a, b) (Fleet_Model.pairs_of N c) -> Rabs (f a - f b) <= e /\ (forall m, dev = Some m -> e <= Rabs m)).
  { intros a b Hab. destruct (central_below s N nb c a b Hn Hc Hab) as [Ha Hb].
    destruct (F a k Ha Hk) as [Fa Ma]. destruct (F b k Hb Hk) as [Fb Mb]. destruct (Fe (form_name k k)) as [Fk Mk].
    assert (Z : incl ([ le0 (centre_sx (pos a) (conf a) k - centre_sx (pos b) (conf b) k - eps (form_name k k))%sx;
                        le0 (- centre_sx (pos a) (conf a) k + centre_sx (pos b) (conf b) k - eps (form_name k k))%sx ] ++
                      match dev with None => [] | Some m => [ Con (eps (form_name k k)) (Some (- Rabs m)) (Rabs m) ] end)
                     (flat_map (soft_con eps dev pos conf d) (Fleet_Model.pairs_of N c))).
    { intros x Hx. apply in_flat_map. exists (a, b). split; [exact Hab|]. unfold soft_con. apply in_flat_map.
      exists k. split; [apply in_seq; lia|]. exact Hx. }
    assert (A := le0_now X _ _ tau I Sv (Z _ (or_introl eq_refl))).
    assert (B := le0_now X _ _ tau I Sv (Z _ (or_intror (or_introl eq_refl)))).
    cbn [sval] in A, B. rewrite !centre_val in A, B by (rewrite L; assumption).
    assert (A' : f a - f b - e <= 0).
    { apply A; unfold centre_sx; cbn [fits mentions]; [auto|rewrite Ma; reflexivity]. }
    assert (B' : - f a + f b - e <= 0).
    { apply B; unfold centre_sx; cbn [fits mentions]; [auto|rewrite Ma; reflexivity]. }
    split. { apply Rabs_le. lra. }
    intros m ->. apply (both_now X _ (eps (form_name k k)) (- Rabs m) (Rabs m) tau I Sv); auto.
    apply Z. cbn. auto. }
  assert (S1 : exists a b, In (a, b) (Fleet_Model.pairs_of N c)).
  { pose proof (central_links s N nb c Hn Hs Hc 0%nat 1%nat ltac:(lia) ltac:(lia)) as Q. inversion Q; subst; eauto. }
  destruct S1 as (a & b & Hab). destruct (M a b Hab) as [Ab Dv].
  assert (E0 : 0 <= e) by (pose proof (Rabs_pos (f a - f b)); lra).
  split; [exact E0|]. split; [exact Dv|]. intros u v Hu Hv.
  replace (at_ (pos u k) - at_ (pos v k) - (nth k (conf u) 0 - nth k (conf v) 0)) with (f u - f v) by (unfold f, centre, at_; lra).
  unfold Fleet_Model.neighbours in Hn. destruct (String.eqb s "circular") eqn:E1.
  - apply String.eqb_eq in E1. subst s. cbn [String.eqb]. injection Hn as <-.
    apply (circ_spread N f e c (Hs eq_refl) E0 Hc); auto. intros x y Hxy. apply M. exact Hxy.
  - destruct (String.eqb s "full") eqn:E2; [|discriminate]. apply String.eqb_eq in E2. subst s. injection Hn as <-.
    rewrite Rmult_1_l. apply (full_spread N f e c E0 Hc); auto. intros x y Hxy. apply M. exact Hxy.
Qed.

(* a formation of discs that also keep apart: the configuration leaves room for both *)
Theorem formation_room : forall s N conf pos cs X var env n_seg vs cs' idx u v mu mv r1 r2 t1 t2,
  central_cons None s N 2 pos conf = Some cs -> (s = "circular"%string -> (3 <= N)%nat) -> solved 0 X cs ->
  (forall a i, (a < N)%nat -> (i < 2)%nat -> fits X (pos a i) /\ mentions (pos a i) = true) ->
  (forall a, (a < N)%nat -> length (conf a) = 2%nat) ->
  apart_cons var env 2 n_seg vs = Some cs' -> solved 0 X cs' -> (idx < n_seg)%nat ->
  (forall l n c, on_unit (X (var l n c))) -> fits X (t1 idx) -> fits X (t2 idx) ->
  (u < N)%nat -> (v < N)%nat -> In mu vs -> In mv vs -> m_label mu <> m_label mv ->
  (1 <= m_shapes mu)%nat -> (1 <= m_shapes mv)%nat ->
  m_body mu = Planar [(0, 0)] r1 (fun _ => pos u 0%nat) (fun _ => pos u 1%nat) t1 0 ->
  m_body mv = Planar [(0, 0)] r2 (fun _ => pos v 0%nat) (fun _ => pos v 1%nat) t2 0 ->
  r1 + r2 + Rmin 0 (m_sd mu) + Rmin 0 (m_sd mv) <= dist (nth 0 (conf u) 0, nth 1 (conf u) 0) (nth 0 (conf v) 0, nth 1 (conf v) 0).
Proof.
  intros s N conf pos cs X var env n_seg vs cs' idx u v mu mv r1 r2 t1 t2 HC Hs Sv F L HA SA Hi U F1 F2 Hu Hv Iu Iv D S1 S2 B1 B2.
  assert (I : 0 <= 0 <= 1) by lra.
  pose proof (fun k => central_keeps s N 2 pos conf cs X 0 u v k HC Hs Sv F L I Hu Hv) as K. cbv zeta in K.
  pose proof (K 0%nat ltac:(lia)) as K0. pose proof (K 1%nat ltac:(lia)) as K1.
  destruct (planar_apart var env n_seg vs cs' X idx mu mv _ _ _ _ _ _ _ _ _ _ _ _ 0 HA SA Hi Iu Iv D S1 S2 B1 B2 U) as (e1 & e2 & E1 & E2 & P).
  - intros e [<-|[<-|[<-|[<-|[<-|[<-|[]]]]]]]; try assumption; apply F; (assumption || lia).
  - exact I.
  - cbv beta zeta in P.
    specialize (P (sval (jets X 0) (pos u 0%nat), sval (jets X 0) (pos u 1%nat)) (sval (jets X 0) (pos v 0%nat), sval (jets X 0) (pos v 1%nat))).
    assert (W : forall p th, hull (map (world p th 0) [(0, 0)]) p).
    { intros [px py] th. cbn [map]. replace (world (px, py) th 0 (0, 0)) with (px, py).
      - apply hull_vertex. left. reflexivity.
      - unfold world, moved, turned. cbn [fst snd]. f_equal; ring. }
    specialize (P (W _ _) (W _ _)). unfold Rmax in E1, E2. unfold Rmin.
    replace (dist (nth 0 (conf u) 0, nth 1 (conf u) 0) (nth 0 (conf v) 0, nth 1 (conf v) 0))
      with (dist (sval (jets X 0) (pos u 0%nat), sval (jets X 0) (pos u 1%nat)) (sval (jets X 0) (pos v 0%nat), sval (jets X 0) (pos v 1%nat))).
    + destruct (Rle_dec 0 (m_sd mu)), (Rle_dec 0 (m_sd mv)); lra.
    + unfold dist. cbn [fst snd]. rewrite K0, K1. reflexivity.
Qed.
Theorem slack_names : exists s k s' k', (s, k) <> (s', k') /\ eps_name s k = eps_name s' k'.
Proof. exists 1%nat, 11%nat, 11%nat, 1%nat. split; [intros H; discriminate|reflexivity]. Qed.
