From Coq Require Import ZArith QArith List Bool Lia Lqa Permutation.
Import ListNotations.
From Verif Require Import Grid_Model AStar_Model AStar_Spec AStar_Proofs.
Open Scope Z_scope.

(* ---------- walks ---------- *)
Lemma walk_hd E a b l : walk E a b l -> hd a l = a.
Proof. intros H; inversion H; auto. Qed.
Lemma walk_snoc E a b c l : walk E a b l -> E b c -> walk E a c (l ++ [c]).
Proof.
  intros H; induction H; simpl; intros.
  - apply walk_cons with c; auto. constructor.
  - econstructor; eauto.
Qed.
Lemma walk_len_snoc E f a b c l : walk E a b l ->
  (walk_len f (l ++ [c]) == walk_len f l + f b c)%Q.
Proof.
  intros H; induction H.
  - simpl. lra.
  - assert (Hd : exists l', l = b :: l') by (inversion H0; eauto).
    destruct Hd as [l' ->]. simpl app in *. simpl walk_len in *. lra.
Qed.
Lemma walk_len_cons E f a b c l : walk E b c l -> (walk_len f (a :: l) == f a b + walk_len f l)%Q.
Proof. intros H; inversion H; subst; simpl; lra. Qed.
Lemma walk_mono (E E' : pos -> pos -> Prop) a b l : (forall p q, E p q -> E' p q) -> walk E a b l -> walk E' a b l.
Proof. intros H W; induction W; econstructor; eauto. Qed.
Lemma walk_last E a b l : walk E a b l -> forall d, last l d = b.
Proof.
  intros H; induction H; intros; auto.
  inversion H0; subst; simpl in *; auto.
Qed.
Lemma walk_app E a b c l1 l2 : walk E a b l1 -> walk E b c (b :: l2) -> walk E a c (l1 ++ l2).
Proof. intros H; induction H; simpl; intros; auto. econstructor; eauto. Qed.

Lemma walk_next (E : pos -> pos -> Prop) a b c l : E a b -> walk E b c (b :: l) -> walk E a c (a :: b :: l).
Proof. intros; econstructor; eauto. Qed.

Section Search.
Variable pl : planner.
Variable start : pos.
Let G := pgrid pl.
Let mlen := move_len G (pdiag pl).
Let E (p q : pos) : Prop := In q (get_neighbors G p).

Notation Inv := (Inv pl start).
Notation Front := (Front pl).
Notation CC := (CC pl start).
Notation child := (child pl).

Lemma CC_nonempty h r : CC h r -> r <> [].
Proof. intros H; inversion H; discriminate. Qed.

Lemma CC_last_in h r : CC h r -> forall d, In (last r d) r.
Proof.
  intros H; induction H; intros d; [simpl; auto|].
  destruct r as [|a r]; [simpl in *; contradiction|].
  right. apply (IHCC d).
Qed.

Lemma last_cons_ne {A} (x : A) r d : r <> [] -> last (x :: r) d = last r d.
Proof. destruct r; simpl; congruence. Qed.

Lemma CC_walk_back h r : CC h r -> NoDup r -> forall i, In i r -> forall fuel,
  (length r <= S fuel)%nat ->
  exists l, walk_back fuel h (last r O) i = Ok l /\
    walk E start (npos (getn h i)) (rev (map (fun k => npos (getn h k)) l)) /\
    (walk_len mlen (rev (map (fun k => npos (getn h k)) l)) == ng (getn h i))%Q /\
    incl l r /\ NoDup l.
Proof.
  intros H; induction H as [i Hs Hp Hg|i j r H IH Hj Hc]; intros Nd k Hk fuel Hf.
  - destruct Hk as [<-|[]]. exists [i]. destruct fuel; simpl; rewrite Nat.eqb_refl.
    + split; auto. rewrite Hs, Hg. split; [constructor|]. split; [simpl; lra|].
      split; [intros x; auto|]. constructor; [simpl; tauto|constructor].
    + split; auto. rewrite Hs, Hg. split; [constructor|]. split; [simpl; lra|].
      split; [intros x; auto|]. constructor; [simpl; tauto|constructor].
  - rewrite last_cons_ne by (eapply CC_nonempty; eauto).
    inversion Nd as [|x y Ni Nr]; subst.
    destruct (in_dec Nat.eq_dec k r) as [Yk|Nk].
    + simpl in Hf. destruct (IH Nr k Yk fuel ltac:(lia)) as (l & A & B & C & D & F).
      exists l. repeat split; auto. intros x Hx; right; auto.
    + destruct Hk as [<-|Hk]; [|contradiction].
      assert (Nl : Nat.eqb i (last r O) = false).
      { apply Nat.eqb_neq. intros Eq. apply Ni. rewrite Eq. eapply CC_last_in; eauto. }
      destruct Hc as (Pi & Ei & Gi & _).
      assert (Lr : (1 <= length r)%nat) by (destruct r; simpl in *; [contradiction|lia]).
      destruct fuel as [|fuel]; [simpl in Hf; lia|].
      destruct (IH Nr j Hj fuel ltac:(simpl in Hf; lia)) as (l & A & B & C & D & F).
      exists (i :: l). simpl walk_back. rewrite Nl, Pi, A. split; auto.
      simpl map. simpl rev. split; [|split; [|split]].
      * eapply walk_snoc; eauto.
      * rewrite (walk_len_snoc E mlen start (npos (getn h j))) by auto.
        rewrite C, Gi. unfold mlen, G. lra.
      * intros x [<-|Hx]; [left; auto|right; auto].
      * constructor; auto.
Qed.

Lemma CC_reach h r : CC h r -> forall i, In i r ->
  exists l, walk E start (npos (getn h i)) l /\ (walk_len mlen l == ng (getn h i))%Q.
Proof.
  intros H; induction H as [i Hs Hp Hg|i j r H IH Hj Hc]; intros k Hk.
  - destruct Hk as [<-|[]]. exists [start]. rewrite Hs, Hg. split; [constructor|simpl; lra].
  - destruct Hk as [<-|Hk]; auto. destruct (IH j Hj) as (l & A & B).
    destruct Hc as (Pi & Ei & Gi & _). exists (l ++ [npos (getn h i)]).
    split; [eapply walk_snoc; eauto|]. rewrite (walk_len_snoc E mlen start (npos (getn h j))) by auto.
    rewrite B, Gi. unfold mlen, G. lra.
Qed.

Lemma CC_start h r : CC h r -> exists i, In i r /\ npos (getn h i) = start.
Proof.
  intros H; induction H; [exists i; simpl; auto|].
  destruct IHCC as (k & A & B). exists k; simpl; auto.
Qed.

Lemma CC_inside h r : inside G start -> CC h r -> forall i, In i r -> inside G (npos (getn h i)).
Proof.
  intros Hs H; induction H; intros k Hk.
  - destruct Hk as [<-|[]]. rewrite H; auto.
  - destruct Hk as [<-|Hk]; auto. destruct H1 as (_ & X & _). eapply neighbors_inside; eauto.
Qed.

(* ---------- number of closed cells ---------- *)
Definition cells_of (g : grid) : list pos :=
  list_prod (map Z.of_nat (seq 0 (Z.to_nat (nx g)))) (map Z.of_nat (seq 0 (Z.to_nat (ny g)))).

Lemma cells_complete g p : inside g p -> In p (cells_of g).
Proof.
  destruct p as [x y]; intros [H1 H2]; simpl in *. apply in_prod.
  - apply in_map_iff. exists (Z.to_nat x). split; [lia|]. apply in_seq; lia.
  - apply in_map_iff. exists (Z.to_nat y). split; [lia|]. apply in_seq; lia.
Qed.
Lemma cells_length g : 0 <= nx g -> 0 <= ny g -> length (cells_of g) = Z.to_nat (nx g * ny g).
Proof.
  intros. unfold cells_of, pos. rewrite prod_length, !map_length, !seq_length.
  rewrite Z2Nat.inj_mul; auto.
Qed.

Lemma closed_bound s : Inv s -> inside G start ->
  (length (cls s) <= Z.to_nat (nx G * ny G))%nat.
Proof.
  intros H Hs. rewrite <- (cells_length G); [|unfold inside in Hs; lia..].
  rewrite <- (map_length (P s) (cls s)). apply NoDup_incl_length.
  - pose proof (I_nodup _ _ _ H) as N. unfold ids in N. rewrite map_app in N.
    clear - N. induction (map (P s) (opn s)); simpl in N; auto. inversion N; auto.
  - intros p Hp. apply in_map_iff in Hp. destruct Hp as (i & <- & Hi).
    apply cells_complete. eapply CC_inside; [auto|apply (I_cc _ _ _ H)|]. rewrite <- in_rev; auto.
Qed.

(* ---------- the loop ---------- *)
Inductive loop_spec : res st -> Prop :=
| LS_ok s : Inv s -> P s (cur s) = pgoal pl -> loop_spec (Ok s)
| LS_none s : Inv s -> Front s -> P s (cur s) <> pgoal pl ->
    get_neighbors G (P s (cur s)) = [] -> loop_spec (Err ENoNeighbors)
| LS_nopath s c : Inv s -> Exp pl s -> In c (opn s) -> Inv (pop s c) ->
    opn (pop s c) = [] -> (forall q, In q (get_neighbors G (P s c)) -> seen (pop s c) q) ->
    loop_spec (Err ENoPath).

Lemma loop_ok (I : st -> Prop) :
  (forall s s1 c, Inv s -> I s -> Inv s1 -> Rel s s1 -> Exp pl s1 -> In c (opn s1) ->
     (forall i, In i (opn s1) -> (nf (getn (heap s1) c) <= nf (getn (heap s1) i))%Q) ->
     I (pop s1 c)) ->
  inside G start -> forall fuel s, Inv s -> Front s -> I s ->
  (Z.to_nat (nx G * ny G) < fuel + length (cls s))%nat ->
  loop_spec (loop fuel pl s) /\ (forall s', loop fuel pl s = Ok s' -> I s').
Proof.
  intros HI Hs. induction fuel as [|fuel IH]; intros s H F Is Hf.
  - pose proof (closed_bound s H Hs). simpl in Hf. lia.
  - simpl. rewrite P_eq. destruct (pos_eqb (P s (cur s)) (pgoal pl)) eqn:Eg.
    + apply pos_eqb_eq in Eg. split; [constructor; auto|]. intros s' X; inversion X; subst; auto.
    + apply pos_eqb_neq in Eg. destruct (iter_ok pl start s H F Eg) as [En|s1 c H1 R1 X1 Hc H2 Ho Hn|s1 c H1 R1 X1 Hc M H2 F2].
      * split; [eapply LS_none; eauto|discriminate].
      * split; [eapply LS_nopath with (s := s1); eauto|discriminate].
      * apply IH; auto.
        -- apply (HI s s1 c); auto.
        -- simpl. rewrite app_length, (R_cls _ _ R1). simpl. lia.
Qed.

Lemma run_ok (I : st -> Prop) :
  (forall s s1 c, Inv s -> I s -> Inv s1 -> Rel s s1 -> Exp pl s1 -> In c (opn s1) ->
     (forall i, In i (opn s1) -> (nf (getn (heap s1) c) <= nf (getn (heap s1) i))%Q) ->
     I (pop s1 c)) ->
  inside G start -> I (init start) ->
  loop_spec (loop (fuel_of G) pl (init start)) /\
  (forall s', loop (fuel_of G) pl (init start) = Ok s' -> I s').
Proof.
  intros HI Hs I0. apply loop_ok; auto using init_inv.
  - eapply init_front.
  - unfold fuel_of. simpl. lia.
Qed.

(* ---------- the returned path ---------- *)
Lemma path_ok s : Inv s -> exists l, closed_list_to_path s = Ok l /\
  let path := rev (map (fun i => npos (getn (heap s) i)) l) in
  walk E start (P s (cur s)) path /\ (walk_len mlen path == ng (getn (heap s) (cur s)))%Q /\ NoDup path.
Proof.
  intros H. unfold closed_list_to_path.
  assert (Hl : last (cls s) O = cur s).
  { destruct (I_cur _ _ _ H) as [k Ek]. rewrite Ek. apply last_last. }
  assert (Hh : hd O (cls s) = last (rev (cls s)) O).
  { destruct (cls s) as [|a l]; auto. simpl. rewrite last_last. auto. }
  assert (Hn : NoDup (cls s)).
  { pose proof (ids_NoDup _ _ _ H) as N. unfold ids in N.
    clear - N. induction (opn s); simpl in N; auto. inversion N; auto. }
  destruct (CC_walk_back (heap s) (rev (cls s)) (I_cc _ _ _ H) (NoDup_rev Hn) (cur s)) with (fuel := length (heap s))
    as (l & A & B & C & D & F).
  - rewrite <- in_rev. eapply cur_in_cls; eauto.
  - rewrite rev_length. apply le_S.
    rewrite <- (seq_length (length (heap s)) 0). apply NoDup_incl_length; auto.
    intros i Hi. apply in_seq. pose proof (Inv_cls_len _ _ _ _ H Hi). lia.
  - exists l. rewrite Hl, Hh. split; auto. simpl. split; auto. split; auto.
    apply NoDup_rev. change (fun k : nat => npos (getn (heap s) k)) with (P s).
    assert (Sub : forall i, In i l -> In i (ids s)).
    { intros i Hi. apply in_or_app; right. apply in_rev. apply D; auto. }
    clear - F Sub H. induction l as [|a l IH]; simpl; constructor.
    + intros X. apply in_map_iff in X. destruct X as (b & Pb & Hb). inversion F; subst. apply H2.
      assert (b = a); [|subst; auto].
      eapply NoDup_map_inj; [apply (I_nodup _ _ _ H)| | |]; auto; apply Sub; simpl; auto.
    + apply IH; [inversion F; auto|]. intros; apply Sub; simpl; auto.
Qed.

Theorem search_path path : inside G start -> search pl start = Ok path ->
  walk E start (pgoal pl) path /\ NoDup path.
Proof.
  intros Hs. unfold search. fold G.
  destruct (run_ok (fun _ => True)) as [L _]; auto.
  destruct L as [s H Hg| |]; try discriminate.
  destruct (path_ok s H) as (l & El & W & C & N). rewrite El. intros X; inversion X; subst.
  rewrite <- Hg. auto.
Qed.

Theorem search_errors e : inside G start -> search pl start = Err e -> e = ENoNeighbors \/ e = ENoPath.
Proof.
  intros Hs. unfold search. fold G.
  destruct (run_ok (fun _ => True)) as [L _]; auto.
  destruct L as [s H Hg| |].
  - destruct (path_ok s H) as (l & El & _). rewrite El. discriminate.
  - intros X; inversion X; auto.
  - intros X; inversion X; auto.
Qed.

(* ---------- completeness ---------- *)
Lemma exhausted s c : Inv s -> Exp pl s -> In c (opn s) -> Inv (pop s c) ->
  opn (pop s c) = [] -> (forall q, In q (get_neighbors G (P s c)) -> seen (pop s c) q) ->
  forall a b l, walk E a b l -> seen (pop s c) a -> seen (pop s c) b.
Proof.
  intros H X Hc H2 Ho Hn a b l W. induction W as [|a b d l Hab W IH]; auto. intros Sa.
  apply IH. destruct Sa as (i & Hi & Pi). unfold ids in Hi. rewrite Ho in Hi. simpl in Hi.
  apply in_app_or in Hi. destruct Hi as [Hi|[<-|[]]].
  - assert (Sb : seen s b).
    { apply (X_exp _ _ X i); auto. change (P s i) with (P (pop s c) i). rewrite Pi. auto. }
    destruct Sb as (k & Hk & Pk). exists k; split; auto.
    eapply Permutation_in; [apply pop_ids; auto|auto].
  - apply Hn. change (P s c) with (P (pop s c) c). rewrite Pi. auto.
Qed.

(* if 'There is no path' is raised although the goal is reachable, every
   reachable cell had been visited and the goal was the very last one *)
Theorem search_nopath : inside G start -> search pl start = Err ENoPath ->
  exists visited last_visited,
    (forall q, reachable E start q <-> In q (visited ++ [last_visited])) /\
    ~ In (pgoal pl) visited.
Proof.
  intros Hs. unfold search. fold G.
  destruct (run_ok (fun _ => True)) as [L _]; auto.
  destruct L as [s H Hg| |s c H X Hc H2 Ho Hn]; try discriminate.
  - destruct (path_ok s H) as (l & El & _). rewrite El. discriminate.
  - intros _. exists (map (P s) (cls s)), (P s c). split.
    + intros q. replace (map (P s) (cls s) ++ [P s c]) with (map (P (pop s c)) (cls s ++ [c]))
        by (rewrite map_app; reflexivity).
      split.
      * intros [l W].
        assert (Ss : seen (pop s c) start).
        { destruct (CC_start _ _ (I_cc _ _ _ H2)) as (i & Hi & Pi). exists i; split; auto.
          apply in_or_app; right. apply in_rev; auto. }
        destruct (exhausted s c H X Hc H2 Ho Hn _ _ _ W Ss) as (i & Hi & Pi).
        unfold ids in Hi; rewrite Ho in Hi. simpl in Hi. rewrite <- Pi. apply in_map; auto.
      * intros Hq. apply in_map_iff in Hq. destruct Hq as (i & <- & Hi).
        destruct (CC_reach _ _ (I_cc _ _ _ H2) i) as (l & W & _).
        { simpl. rewrite <- in_rev; auto. }
        exists l; auto.
    + intros Hi. apply in_map_iff in Hi. destruct Hi as (i & Pi & Hi). eapply (X_goal _ _ X); eauto.
Qed.

Theorem search_noneighbors : inside G start -> search pl start = Err ENoNeighbors ->
  exists p, reachable E start p /\ p <> pgoal pl /\ forall q, ~ In q (get_neighbors G p).
Proof.
  intros Hs. unfold search. fold G.
  destruct (run_ok (fun _ => True)) as [L _]; auto.
  destruct L as [s H Hg|s H F Hg Hn|]; try discriminate.
  - destruct (path_ok s H) as (l & El & _). rewrite El. discriminate.
  - intros _. exists (P s (cur s)). split; [|split; auto].
    + destruct (CC_reach _ _ (I_cc _ _ _ H) (cur s)) as (l & W & _).
      { rewrite <- in_rev. eapply cur_in_cls; eauto. }
      exists l; auto.
    + rewrite Hn. intros q [].
Qed.

(* ---------- quality ---------- *)
Section Quality.
Variable eps : Q.
Hypothesis Heps : (1 <= eps)%Q.
Hypothesis Hnn : forall p q, E p q -> (0 <= mlen p q)%Q.
Hypothesis Hcons : forall p q, E p q -> (h_cost pl p <= eps * mlen p q + h_cost pl q)%Q.

Lemma walk_nonneg a b l : walk E a b l -> (0 <= walk_len mlen l)%Q.
Proof.
  intros W; induction W; [simpl; lra|].
  rewrite (walk_len_cons E mlen a b c l W). pose proof (Hnn _ _ H). lra.
Qed.
Lemma walk_h a b l : walk E a b l -> (h_cost pl a <= eps * walk_len mlen l + h_cost pl b)%Q.
Proof.
  intros W; induction W; [simpl; lra|].
  rewrite (walk_len_cons E mlen a b c l W). pose proof (Hcons _ _ H).
  set (w := walk_len mlen l) in *. set (m := mlen a b) in *. nra.
Qed.

Definition Opt (s : st) : Prop := forall c, In c (cls s) -> forall l, walk E start (P s c) l ->
  (ng (getn (heap s) c) <= eps * walk_len mlen l)%Q.

Lemma opt_step s s1 c : Inv s -> Opt s -> Inv s1 -> Rel s s1 -> Exp pl s1 -> In c (opn s1) ->
  (forall i, In i (opn s1) -> (nf (getn (heap s1) c) <= nf (getn (heap s1) i))%Q) ->
  Opt (pop s1 c).
Proof.
  intros H O H1 R X Hc M.
  assert (O1 : Opt s1).
  { intros d Hd l W. rewrite (R_cls _ _ R) in Hd. rewrite (Rel_P_cls _ _ _ R Hd) in W.
    rewrite (R_clsn _ _ R d Hd). apply O; auto. }
  assert (Main : forall a b l, walk E a b l -> b = P s1 c -> forall x l0,
     In x (cls s1) -> P s1 x = a -> walk E start a l0 ->
     (ng (getn (heap s1) c) <= eps * (walk_len mlen l0 + walk_len mlen l))%Q).
  { intros a b l W. induction W as [a|a b d l Hab W IH]; intros Eb x l0 Hx Px W0.
    - exfalso. assert (x = c).
      { eapply NoDup_map_inj; [apply (I_nodup _ _ _ H1)| | |].
        - apply in_or_app; right; auto. - apply in_or_app; left; auto. - congruence. }
      subst x. eapply disj; eauto.
    - rewrite (walk_len_cons E mlen a b d l W).
      assert (Sb : seen s1 b). { apply (X_exp _ _ X x); auto. rewrite Px; auto. }
      destruct Sb as (y & Hy & Py). apply in_app_or in Hy.
      pose proof (walk_snoc E _ _ _ _ W0 Hab) as W1.
      pose proof (walk_len_snoc E mlen _ _ b _ W0) as L1.
      destruct Hy as [Hy|Hy].
      + pose proof (X_le _ _ X x y Hx Hy) as Hle. rewrite Px, Py in Hle. specialize (Hle Hab).
        fold G in Hle. fold mlen in Hle.
        pose proof (O1 x Hx l0) as Ox. rewrite Px in Ox. specialize (Ox W0).
        pose proof (M y Hy) as Hf.
        destruct (I_open _ _ _ H1 y Hy) as (? & _ & (_ & _ & _ & Fy)).
        destruct (I_open _ _ _ H1 c Hc) as (? & _ & (_ & _ & _ & Fc)).
        rewrite Fy, Fc in Hf. fold (P s1 y) in Hf. fold (P s1 c) in Hf. rewrite Py in Hf.
        pose proof (walk_h _ _ _ W) as Hh. rewrite Eb in Hh.
        pose proof (Hnn _ _ Hab).
        set (w0 := walk_len mlen l0) in *. set (w := walk_len mlen l) in *. set (m := mlen a b) in *.
        set (gc := ng (getn (heap s1) c)) in *. set (gy := ng (getn (heap s1) y)) in *.
        set (gx := ng (getn (heap s1) x)) in *. nra.
      + specialize (IH Eb y (l0 ++ [b]) Hy Py W1). rewrite L1 in IH.
        eapply Qle_trans; [exact IH|].
        apply Qle_lteq. right. ring. }
  intros d Hd l W. simpl in Hd. change (P (pop s1 c) d) with (P s1 d) in W. simpl heap.
  apply in_app_or in Hd. destruct Hd as [Hd|[<-|[]]]; [apply O1; auto|].
  destruct (CC_start _ _ (I_cc _ _ _ H1)) as (x & Hx & Px). rewrite <- in_rev in Hx.
  pose proof (Main _ _ _ W eq_refl x [start] Hx Px (walk_one E start)) as Mn.
  simpl walk_len in Mn. set (w := walk_len mlen l) in *.
  eapply Qle_trans; [exact Mn|]. apply Qle_lteq; right; ring.
Qed.

Theorem search_quality path : inside G start -> search pl start = Ok path ->
  forall l, walk E start (pgoal pl) l -> (walk_len mlen path <= eps * walk_len mlen l)%Q.
Proof.
  intros Hs. unfold search. fold G.
  destruct (run_ok Opt) as [L LI]; auto.
  { intros s s1 c; intros; apply (opt_step s s1 c); auto. }
  { intros d [<-|[]] l W. simpl. pose proof (walk_nonneg _ _ _ W).
    set (w := walk_len mlen l) in *. nra. }
  destruct L as [s H Hg| |]; try discriminate.
  destruct (path_ok s H) as (k & Ek & W & C & N). rewrite Ek. intros X l Wl. inversion X; subst.
  rewrite C. apply LI; auto. { eapply cur_in_cls; eauto. } rewrite Hg; auto.
Qed.
End Quality.
End Search.
