(** The lists of obstacles of an environment. *)
From Coq Require Import Reals List Arith Bool Lia.
From Verif Require Import Step_Model Step_Spec.
Import ListNotations.
Local Open Scope nat_scope.

Lemma nested_ind2 : forall (P : nested -> Prop), (forall o, P (One o)) -> (forall l, Forall P l -> P (Many l)) -> forall a, P a.
Proof.
  intros P H1 H2. fix IH 1. intros [o|l]; [apply H1|]. apply H2. induction l as [|x l IL]; constructor; [apply IH|exact IL].
Qed.
Definition grown (e : envir) (os : list obst) : envir := mkE (e_rooms e) (e_dim e) (e_obst e ++ os) (e_n e + length os).
Lemma grown_nil : forall e, grown e [] = e.
Proof. intros []. unfold grown. cbn. rewrite app_nil_r, Nat.add_0_r. reflexivity. Qed.
Lemma grown_app : forall e l1 l2, grown (grown e l1) l2 = grown e (l1 ++ l2).
Proof. intros e l1 l2. unfold grown. cbn. rewrite app_assoc, app_length, Nat.add_assoc. reflexivity. Qed.

Lemma add_both : forall a e,
  (Forall (fits_in (e_dim e)) (flat a) -> add_obstacle a e = Some (grown e (flat a))) /\
  (~ Forall (fits_in (e_dim e)) (flat a) -> add_obstacle a e = None).
Proof.
  apply (nested_ind2 (fun a => forall e,
  (Forall (fits_in (e_dim e)) (flat a) -> add_obstacle a e = Some (grown e (flat a))) /\
  (~ Forall (fits_in (e_dim e)) (flat a) -> add_obstacle a e = None))).
  - intros o e. cbn [flat add_obstacle]. destruct ((ob_dim o =? 3) && (e_dim e =? 2)) eqn:Q.
    + apply andb_prop in Q as [Q1 Q2]. apply Nat.eqb_eq in Q1, Q2. split; [|reflexivity].
      intros F. inversion F as [|x y F1 F2]. exfalso. apply F1. split; assumption.
    + split; [intros _; unfold grown; cbn; f_equal; f_equal; lia|]. intros F. exfalso. apply F. constructor; [|constructor].
      intros [Q1 Q2]. rewrite Q1, Q2 in Q. discriminate.
  - intros l IH. cbn [add_obstacle flat]. induction IH as [|x r HX HR IL]; intros e.
    + cbn [flat_map]. rewrite grown_nil. split; [reflexivity|]. intros F. exfalso. apply F. constructor.
    + cbn [flat_map]. destruct (HX e) as [H1 H2]. split.
      * intros F. apply Forall_app in F as [F1 F2]. rewrite (H1 F1). rewrite <- grown_app.
        apply (IL (grown e (flat x))). exact F2.
      * intros F. destruct (add_obstacle x e) as [e'|] eqn:E; [|reflexivity].
        assert (F1 : Forall (fits_in (e_dim e)) (flat x)).
        { apply Forall_forall. intros o Ho [Q1 Q2].
          assert (~ Forall (fits_in (e_dim e)) (flat x)).
          { intros G. rewrite Forall_forall in G. apply (G o Ho). split; assumption. }
          pose proof (H2 H). congruence. }
        pose proof (H1 F1) as X. assert (Y : e' = grown e (flat x)) by congruence. rewrite Y. apply (IL (grown e (flat x))).
        intros F2. apply F. apply Forall_app. split; assumption.
Qed.
(** nested lists are added in order, or the call raises *)
Theorem add_obstacle_spec : forall a e,
  (Forall (fits_in (e_dim e)) (flat a) ->
     exists e', add_obstacle a e = Some e' /\ e_obst e' = e_obst e ++ flat a /\ e_n e' = e_n e + length (flat a) /\
       e_rooms e' = e_rooms e /\ e_dim e' = e_dim e) /\
  (forall o, In o (flat a) -> ~ fits_in (e_dim e) o -> add_obstacle a e = None).
Proof.
  intros a e. destruct (add_both a e) as [H1 H2]. split.
  - intros F. exists (grown e (flat a)). split; [apply H1, F|]. repeat split.
  - intros o Ho N. apply H2. intros F. rewrite Forall_forall in F. apply N, F, Ho.
Qed.

Lemma complete_ok : forall n r r', complete n r = Some r' ->
  rm_dim r = n /\ rm_id r' = rm_id r /\ rm_dim r' = n /\ rm_obst r' = rm_obst r /\
  rm_pos r' = Some (match rm_pos r with Some p => p | None => repeat 0%R n end) /\
  (exists o, rm_orient r' = Some o /\ forall o', rm_orient r = Some o' -> o = o').
Proof.
  intros n r r' H. unfold complete in H. destruct (rm_dim r =? n) eqn:D; [|discriminate]. cbn [negb] in H.
  apply Nat.eqb_eq in D. destruct (rm_orient r) as [o|] eqn:O.
  - injection H as <-. cbn. repeat (split; [try assumption; reflexivity|]). exists o. split; [reflexivity|]. congruence.
  - destruct (n =? 2); [|destruct (n =? 3); [|discriminate]]; injection H as <-; cbn;
      (repeat (split; [try assumption; reflexivity|])); eexists; (split; [reflexivity|discriminate]).
Qed.
Lemma complete_all_ok : forall n rs rs', complete_all n rs = Some rs' ->
  length rs' = length rs /\ forall i d, i < length rs -> complete n (nth i rs d) = Some (nth i rs' d).
Proof.
  intros n rs. induction rs as [|r rs IH]; intros rs' H.
  - injection H as <-. split; [reflexivity|]. intros i d L. cbn in L. lia.
  - cbn in H. destruct (complete n r) as [r1|] eqn:C; [|discriminate]. destruct (complete_all n rs) as [r2|]; [|discriminate].
    injection H as <-. destruct (IH r2 eq_refl) as [L E]. split; [cbn; lia|]. intros [|i] d Hi; [exact C|]. cbn in Hi. apply E. lia.
Qed.
(** an environment counts its obstacles; rooms have one dimension, a position and an orientation *)
Theorem environment_spec : forall rooms obs e, environment rooms obs = Some e ->
  e_obst e = flat (Many obs) /\ e_n e = length (e_obst e) /\ Forall (fits_in (e_dim e)) (e_obst e) /\
  length (e_rooms e) = length rooms /\
  forall i d, i < length rooms -> let r := nth i rooms d in let r' := nth i (e_rooms e) d in
    rm_dim r = e_dim e /\ rm_id r' = rm_id r /\ rm_dim r' = e_dim e /\ rm_obst r' = rm_obst r /\
    rm_pos r' = Some (match rm_pos r with Some p => p | None => repeat 0%R (e_dim e) end) /\
    (exists o, rm_orient r' = Some o /\ forall o', rm_orient r = Some o' -> o = o').
Proof.
  intros rooms obs e H. unfold environment in H. destruct rooms as [|r rest] eqn:R; [discriminate|]. rewrite <- R in *.
  destruct (complete_all (rm_dim r) rooms) as [rs|] eqn:C; [|discriminate].
  set (e0 := mkE rs (rm_dim r) [] 0) in *. destruct (add_both (Many obs) e0) as [H1 H2].
  assert (F : Forall (fits_in (rm_dim r)) (flat (Many obs))).
  { apply Forall_forall. intros o Ho Q. assert (N : ~ Forall (fits_in (e_dim e0)) (flat (Many obs))).
    { intros G. rewrite Forall_forall in G. exact (G o Ho Q). }
    rewrite (H2 N) in H. discriminate. }
  rewrite (H1 F) in H. injection H as <-. destruct (complete_all_ok _ _ _ C) as [L E].
  unfold grown, e0. cbn [e_obst e_n e_rooms e_dim app Nat.add]. split; [reflexivity|]. split; [reflexivity|]. split; [exact F|].
  split; [exact L|]. intros i d Hi. apply complete_ok. apply E, Hi.
Qed.

Lemma add_new_in : forall l o x, In x l -> In x (add_new l o).
Proof. intros l o x H. unfold add_new. destruct (existsb _ l); [exact H|]. apply in_or_app. left. exact H. Qed.
Lemma add_new_ext : forall os l, exists l', fold_left add_new os l = l ++ l' /\ incl l' os.
Proof.
  induction os as [|o os IH]; intros l; cbn [fold_left].
  - exists []. rewrite app_nil_r. split; [reflexivity|intros x []].
  - destruct (IH (add_new l o)) as (l' & E & I). rewrite E. unfold add_new. destruct (existsb _ l).
    + exists l'. split; [reflexivity|]. intros x Hx. right. apply I, Hx.
    + exists (o :: l'). rewrite <- app_assoc. split; [reflexivity|]. intros x [<-|Hx]; [left; reflexivity|right; apply I, Hx].
Qed.
Lemma add_new_has : forall l o, In (ob_id o) (map ob_id (add_new l o)).
Proof.
  intros l o. unfold add_new. destruct (existsb _ l) eqn:E.
  - apply existsb_exists in E as (x & Hx & Q). apply Nat.eqb_eq in Q. rewrite <- Q. apply in_map, Hx.
  - rewrite map_app. apply in_or_app. right. left. reflexivity.
Qed.
Lemma fold_has : forall os l o, In o os -> In (ob_id o) (map ob_id (fold_left add_new os l)).
Proof.
  induction os as [|x os IH]; intros l o H; [destruct H|]. destruct H as [->|H]; cbn [fold_left]; [|apply IH, H].
  destruct (add_new_ext os (add_new l o)) as (l' & -> & _). rewrite map_app. apply in_or_app. left. apply add_new_has.
Qed.
Lemma nodup_snoc : forall (l : list nat) x, NoDup l -> ~ In x l -> NoDup (l ++ [x]).
Proof. intros l x H N. apply NoDup_Add with (a := x) (l := l); [|split; assumption]. rewrite <- (app_nil_r l) at 1. apply Add_app. Qed.
Lemma fold_nodup : forall os l, NoDup (map ob_id l) -> NoDup (map ob_id (fold_left add_new os l)).
Proof.
  induction os as [|x os IH]; intros l H; cbn [fold_left]; [exact H|]. apply IH. unfold add_new.
  destruct (existsb _ l) eqn:E; [exact H|]. rewrite map_app. cbn [map]. apply nodup_snoc; [exact H|].
  intros I. apply in_map_iff in I as (y & Q & I). assert (X : existsb (fun z => ob_id z =? ob_id x) l = true).
  { apply existsb_exists. exists y. split; [exact I|]. apply Nat.eqb_eq, Q. }
  congruence.
Qed.
Lemma put_obst_ok : forall id os rs rs', put_obst id os rs = Some rs' ->
  exists i, i < length rs /\ length rs' = length rs /\ forall d,
    rm_id (nth i rs d) = id /\ (forall j, j < i -> rm_id (nth j rs d) <> id) /\
    rm_obst (nth i rs' d) = Some os /\ rm_id (nth i rs' d) = id /\ (forall j, j <> i -> nth j rs' d = nth j rs d).
Proof.
  intros id os rs. induction rs as [|r rs IH]; intros rs' H; [discriminate|]. cbn in H. destruct (rm_id r =? id) eqn:E.
  - apply Nat.eqb_eq in E. injection H as <-. exists 0. split; [cbn; lia|]. split; [reflexivity|]. intros d. cbn.
    split; [exact E|]. split; [intros j J; lia|]. split; [reflexivity|]. split; [exact E|]. intros [|j] J; [contradiction|reflexivity].
  - apply Nat.eqb_neq in E. destruct (put_obst id os rs) as [r2|]; [|discriminate]. injection H as <-.
    destruct (IH r2 eq_refl) as (i & L & LL & F). exists (S i). split; [cbn; lia|]. split; [cbn; lia|]. intros d.
    destruct (F d) as (F1 & F2 & F3 & F4 & F5). cbn. split; [exact F1|].
    split; [intros [|j] J; [exact E|apply F2; lia]|]. split; [exact F3|]. split; [exact F4|].
    intros [|j] J; [reflexivity|]. apply F5. lia.
Qed.
(** filling a room *)
Theorem fill_room_spec : forall id os e e', fill_room id os e = Some e' ->
  (exists l', e_obst e' = e_obst e ++ l' /\ incl l' os) /\
  (forall o, In o os -> contains e' o) /\
  (NoDup (map ob_id (e_obst e)) -> NoDup (map ob_id (e_obst e'))) /\
  e_n e' = e_n e /\
  exists i, i < length (e_rooms e) /\ length (e_rooms e') = length (e_rooms e) /\ forall d,
    rm_id (nth i (e_rooms e) d) = id /\ to_avoid e' (nth i (e_rooms e') d) = os /\
    (forall j, j <> i -> nth j (e_rooms e') d = nth j (e_rooms e) d).
Proof.
  intros id os e e' H. unfold fill_room in H. destruct (put_obst id os (e_rooms e)) as [rs|] eqn:P; [|discriminate].
  injection H as <-. cbn [e_obst e_rooms e_n]. split; [apply add_new_ext|]. split; [intros o Ho; apply fold_has, Ho|].
  split; [apply fold_nodup|]. split; [reflexivity|].
  destruct (put_obst_ok _ _ _ _ P) as (i & L & LL & F). exists i. split; [exact L|]. split; [exact LL|]. intros d.
  destruct (F d) as (F1 & _ & F3 & _ & F5). split; [exact F1|]. split; [unfold to_avoid; rewrite F3; reflexivity|exact F5].
Qed.
(** ownership is kept by adding obstacles and by filling rooms *)
Theorem owns_add : forall a e e', owns e -> add_obstacle a e = Some e' -> owns e'.
Proof.
  intros a e e' O H. destruct (add_both a e) as [H1 H2].
  assert (F : Forall (fits_in (e_dim e)) (flat a)).
  { apply Forall_forall. intros o Ho Q. assert (N : ~ Forall (fits_in (e_dim e)) (flat a)).
    { intros G. rewrite Forall_forall in G. exact (G o Ho Q). }
    rewrite (H2 N) in H. discriminate. }
  rewrite (H1 F) in H. injection H as <-. intros r o Hr Ho. unfold contains, grown. cbn [e_obst]. rewrite map_app. apply in_or_app.
  unfold to_avoid in Ho. destruct (rm_obst r) as [os|] eqn:R.
  - left. apply (O r o Hr). unfold to_avoid. rewrite R. exact Ho.
  - cbn [grown e_obst] in Ho. apply in_app_or in Ho as [Ho|Ho]; [left|right]; apply in_map, Ho.
Qed.
Theorem owns_fill : forall id os e e', owns e -> fill_room id os e = Some e' -> owns e'.
Proof.
  intros id os e e' O H. destruct (fill_room_spec _ _ _ _ H) as ((l' & E & _) & C & _ & _ & i & L & LL & F).
  intros r o Hr Ho. apply (In_nth _ _ r) in Hr as (j & J & Q). destruct (F r) as (F1 & F2 & F3).
  destruct (Nat.eq_dec j i) as [->|N].
  - rewrite Q in F2. rewrite F2 in Ho. apply C, Ho.
  - rewrite (F3 j N) in Q. unfold to_avoid in Ho. destruct (rm_obst r) as [os'|] eqn:R.
    + unfold contains. rewrite E, map_app. apply in_or_app. left. apply (O r o).
      * rewrite <- Q. apply nth_In. lia.
      * unfold to_avoid. rewrite R. exact Ho.
    + unfold contains. apply in_map, Ho.
Qed.
(** a copy has as many obstacles, all of them new; it owns what it avoids if no room was filled *)
Theorem copy_spec : forall fresh e e', copy fresh e = Some e' ->
  map ob_id (e_obst e') = map fresh (map ob_id (e_obst e)) /\ e_n e' = length (e_obst e) /\
  (Forall (fun r => rm_obst r = None) (e_rooms e) -> owns e').
Proof.
  intros fresh e e' H. unfold copy in H. destruct (environment_spec _ _ _ H) as (A & B & _ & L & R).
  assert (FL : flat (Many (map (fun o => One (mkObst (fresh (ob_id o)) (ob_dim o))) (e_obst e))) =
               map (fun o => mkObst (fresh (ob_id o)) (ob_dim o)) (e_obst e)).
  { cbn [flat]. generalize (e_obst e). intros l. induction l as [|x l IH]; [reflexivity|]. cbn. rewrite IH. reflexivity. }
  rewrite FL in A. split; [rewrite A, !map_map; reflexivity|]. split; [rewrite B, A, map_length; reflexivity|].
  intros F r o Hr Ho. apply (In_nth _ _ r) in Hr as (j & J & Q). rewrite L in J.
  destruct (R j r J) as (_ & _ & _ & X & _). rewrite Q in X. rewrite Forall_forall in F.
  rewrite (F _ (nth_In _ r J)) in X. unfold to_avoid in Ho. rewrite X in Ho. apply in_map, Ho.
Qed.

(** ** what does not hold *)
Theorem fill_count_refuted : exists id os e e', environment (e_rooms e) [] = Some e /\ fill_room id os e = Some e' /\
  e_n e' <> length (e_obst e').
Proof.
  exists 0, [mkObst 7 2], (mkE [mkRoom 0 2 (Some [0; 0]%R) (Some [0%R]) None] 2 [] 0). eexists.
  split; [reflexivity|]. split; [reflexivity|]. cbn. discriminate.
Qed.
(** obstacles of the previous filling stay, although no room has them *)
Theorem fill_replaces_refuted : exists id o1 o2 e e1 e2, environment (e_rooms e) [] = Some e /\
  fill_room id [o1] e = Some e1 /\ fill_room id [o2] e1 = Some e2 /\
  contains e2 o1 /\ forall r, In r (e_rooms e2) -> ~ In o1 (to_avoid e2 r).
Proof.
  exists 0, (mkObst 7 2), (mkObst 8 2), (mkE [mkRoom 0 2 (Some [0; 0]%R) (Some [0%R]) None] 2 [] 0). eexists. eexists.
  split; [reflexivity|]. split; [reflexivity|]. split; [reflexivity|]. split; [left; reflexivity|].
  intros r [<-|[]]. cbn. intros [Q|[]]. discriminate.
Qed.
(** the copy of an environment with a filled room avoids obstacles of the original *)
Theorem copy_owns_refuted : exists fresh id os e e1 e2, environment (e_rooms e) [] = Some e /\
  fill_room id os e = Some e1 /\ copy fresh e1 = Some e2 /\ owns e1 /\ ~ owns e2.
Proof.
  exists (fun n => n + 10), 0, [mkObst 7 2], (mkE [mkRoom 0 2 (Some [0; 0]%R) (Some [0%R]) None] 2 [] 0). eexists. eexists.
  split; [reflexivity|]. split; [reflexivity|]. split; [reflexivity|]. split.
  - intros r o [<-|[]] [<-|[]]. left. reflexivity.
  - intros H. specialize (H _ (mkObst 7 2) (or_introl eq_refl) (or_introl eq_refl)). cbn in H. destruct H as [Q|[]]. discriminate.
Qed.
