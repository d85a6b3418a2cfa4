From Coq Require Import ZArith QArith List Bool Lia Lqa Permutation.
Import ListNotations.
From Verif Require Import Grid_Model AStar_Model AStar_Spec.
Open Scope Z_scope.

(* ---------- basic reflection ---------- *)
Lemma pos_eqb_eq p q : pos_eqb p q = true <-> p = q.
Proof.
  destruct p as [a b], q as [c d]; unfold pos_eqb; simpl.
  rewrite andb_true_iff, !Z.eqb_eq. split; [intros [-> ->]; auto|intros H; inversion H; auto].
Qed.
Lemma pos_eqb_neq p q : pos_eqb p q = false <-> p <> q.
Proof.
  rewrite <- not_true_iff_false, pos_eqb_eq. tauto.
Qed.
Lemma pos_eqb_refl p : pos_eqb p p = true.
Proof. apply pos_eqb_eq; auto. Qed.

Lemma occupied_In g p : occupied g p = true <-> In p (occ g).
Proof.
  unfold occupied. rewrite existsb_exists. split.
  - intros [x [H1 H2]]. apply pos_eqb_eq in H2. subst; auto.
  - intros H; exists p; split; auto using pos_eqb_refl.
Qed.
Lemma in_bounds_inside g p : in_bounds g p = true <-> inside g p.
Proof.
  unfold in_bounds, inside. rewrite !andb_true_iff, !Z.leb_le, !Z.ltb_lt. tauto.
Qed.
Lemma free_open g p : free g p = true <-> open_cell g p.
Proof.
  unfold free, open_cell. rewrite andb_true_iff, negb_true_iff, in_bounds_inside.
  rewrite <- not_true_iff_false, occupied_In. tauto.
Qed.
Lemma mem_pos_In p l : mem_pos p l = true <-> In p l.
Proof.
  unfold mem_pos. rewrite existsb_exists. split.
  - intros [x [H1 H2]]. apply pos_eqb_eq in H2. subst; auto.
  - intros H; exists p; split; auto using pos_eqb_refl.
Qed.

Lemma neighbors_king g p q : In q (get_neighbors g p) -> king p q /\ open_cell g q.
Proof.
  destruct p as [x y]. unfold get_neighbors. rewrite !filter_In.
  intros [[[H1 H2] H3] H4]. rewrite free_open in H3. split; auto.
  unfold king. simpl in H1.
  repeat (destruct H1 as [H1|H1]); try contradiction; subst q; simpl;
    (split; [intro E; inversion E; lia|lia]).
Qed.
Lemma neighbors_neq g p q : In q (get_neighbors g p) -> q <> p.
Proof. intros H; apply neighbors_king in H. destruct H as [[H _] _]; auto. Qed.
Lemma neighbors_inside g p q : In q (get_neighbors g p) -> inside g q.
Proof. intros H; apply neighbors_king in H. destruct H as [_ [H _]]; auto. Qed.

Lemma move_cost_some pl p q : p <> q ->
  move_cost pl p q = Some (move_len (pgrid pl) (pdiag pl) p q).
Proof.
  intros H. destruct p as [a b], q as [c d]. unfold move_cost, move_len; simpl.
  rewrite (Z.eqb_sym b d), (Z.eqb_sym a c).
  destruct (Z.eqb_spec c a), (Z.eqb_spec d b); simpl; auto. subst; congruence.
Qed.

(* ---------- heap ---------- *)
Lemma upd_length h i n : length (upd h i n) = length h.
Proof. revert i; induction h; destruct i; simpl; auto. Qed.
Lemma getn_upd_same h i n : (i < length h)%nat -> getn (upd h i n) i = n.
Proof. unfold getn; revert i; induction h; destruct i; simpl; intros; auto; try lia. apply IHh; lia. Qed.
Lemma getn_upd_other h i j n : i <> j -> getn (upd h i n) j = getn h j.
Proof. unfold getn; revert i j; induction h; destruct i, j; simpl; intros; auto; try congruence. Qed.
Lemma getn_app_old h l i : (i < length h)%nat -> getn (h ++ l) i = getn h i.
Proof. intros; unfold getn; rewrite app_nth1; auto. Qed.
Lemma getn_app_new h n : getn (h ++ [n]) (length h) = n.
Proof. unfold getn; rewrite app_nth2, Nat.sub_diag; auto. Qed.

Definition P (s : st) (i : nat) : pos := npos (getn (heap s) i).
Definition ids (s : st) := opn s ++ cls s.

Lemma NoDup_map_inj {A B} (f : A -> B) l x y :
  NoDup (map f l) -> In x l -> In y l -> f x = f y -> x = y.
Proof.
  induction l; simpl; intros H Hx Hy E; [tauto|]. inversion H; subst.
  destruct Hx as [->|Hx], Hy as [->|Hy]; auto.
  - exfalso; apply H2. rewrite E. apply in_map; auto.
  - exfalso; apply H2. rewrite <- E. apply in_map; auto.
Qed.

(* ---------- structural invariant ---------- *)
Section Inv.
Variable pl : planner.
Variable start : pos.
Let G := pgrid pl.
Let mlen := move_len G (pdiag pl).

(* i is a correct child of j *)
Definition child (h : list node) (j i : nat) : Prop :=
  npar (getn h i) = Some j /\
  In (npos (getn h i)) (get_neighbors G (npos (getn h j))) /\
  ng (getn h i) = (mlen (npos (getn h j)) (npos (getn h i)) + ng (getn h j))%Q /\
  nf (getn h i) = (ng (getn h i) + h_cost pl (npos (getn h i)))%Q.

(* closed list, newest first *)
Inductive CC (h : list node) : list nat -> Prop :=
| CC_one i : npos (getn h i) = start -> npar (getn h i) = None ->
             ng (getn h i) = 0%Q -> CC h [i]
| CC_cons i j r : CC h r -> In j r -> child h j i -> CC h (i :: r).

Record Inv (s : st) : Prop := {
  I_ids : forall i, In i (ids s) -> (i < length (heap s))%nat;
  I_nodup : NoDup (map (P s) (ids s));
  I_cc : CC (heap s) (rev (cls s));
  I_open : forall i, In i (opn s) -> exists j, In j (cls s) /\ child (heap s) j i;
  I_cur : exists k, cls s = k ++ [cur s]
}.

Lemma child_ext h h' j i : getn h' j = getn h j -> getn h' i = getn h i ->
  child h j i -> child h' j i.
Proof. intros E1 E2 [A [B [C D]]]. unfold child. rewrite E1, E2. auto. Qed.

Lemma CC_ext h h' r : (forall i, In i r -> getn h' i = getn h i) -> CC h r -> CC h' r.
Proof.
  intros E H; induction H.
  - constructor; rewrite E; simpl; auto.
  - apply CC_cons with j; auto.
    + apply IHCC. intros; apply E; simpl; auto.
    + eapply child_ext; [| |eassumption]; apply E; simpl; auto.
Qed.

Lemma NoDup_map_NoDup {A B} (f : A -> B) l : NoDup (map f l) -> NoDup l.
Proof. apply NoDup_map_inv. Qed.

Lemma ids_NoDup s : Inv s -> NoDup (ids s).
Proof. intros H; eapply NoDup_map_NoDup; apply (I_nodup _ H). Qed.

Lemma disj s i : Inv s -> In i (opn s) -> In i (cls s) -> False.
Proof.
  intros H Ho Hc. pose proof (ids_NoDup _ H) as N. unfold ids in N.
  induction (opn s) as [|a l IH]; simpl in *; [tauto|].
  inversion N; subst. destruct Ho as [->|Ho].
  - apply H2. apply in_or_app; auto.
  - auto.
Qed.

Lemma cur_in_cls s : Inv s -> In (cur s) (cls s).
Proof. intros H; destruct (I_cur _ H) as [k E]. rewrite E. apply in_or_app; simpl; auto. Qed.

(* what one relaxation (or several) does *)
Record Rel (s s' : st) : Prop := {
  R_cls : cls s' = cls s;
  R_cur : cur s' = cur s;
  R_len : (length (heap s) <= length (heap s'))%nat;
  R_pos : forall i, (i < length (heap s))%nat -> P s' i = P s i;
  R_clsn : forall i, In i (cls s) -> getn (heap s') i = getn (heap s) i;
  R_opn : exists l, opn s' = opn s ++ l;
  R_g : forall i, In i (opn s) -> (ng (getn (heap s') i) <= ng (getn (heap s) i))%Q
}.

Lemma Rel_refl s : Rel s s.
Proof. constructor; auto; try (exists []; rewrite app_nil_r; auto); intros; lra. Qed.

Lemma Inv_open_len s i : Inv s -> In i (opn s) -> (i < length (heap s))%nat.
Proof. intros H Hi. apply (I_ids _ H). apply in_or_app; auto. Qed.
Lemma Inv_cls_len s i : Inv s -> In i (cls s) -> (i < length (heap s))%nat.
Proof. intros H Hi. apply (I_ids _ H). apply in_or_app; auto. Qed.

Lemma P_eq s i : npos (getn (heap s) i) = P s i. Proof. reflexivity. Qed.

Lemma make_node_ok s p : Inv s -> In p (get_neighbors G (P s (cur s))) ->
  exists n, make_node pl (heap s) (cur s) p = Some n /\
    npos n = p /\ npar n = Some (cur s) /\
    ng n = (mlen (P s (cur s)) p + ng (getn (heap s) (cur s)))%Q /\
    nf n = (ng n + h_cost pl p)%Q.
Proof.
  intros H Hp. unfold make_node.
  rewrite move_cost_some. 2:{ apply neighbors_neq in Hp. unfold P in Hp; congruence. }
  eexists; split; [reflexivity|]; simpl. auto.
Qed.

Lemma relax_ok s p : Inv s -> In p (get_neighbors G (P s (cur s))) ->
  exists s', relax pl s p = Ok s' /\ Inv s' /\ Rel s s' /\
    (exists i, In i (ids s') /\ P s' i = p) /\
    (forall i, In i (opn s') -> P s' i = p ->
       (ng (getn (heap s') i) <= mlen (P s (cur s)) p + ng (getn (heap s) (cur s)))%Q) /\
    (forall i, In i (opn s') -> ~ In i (opn s) -> P s' i = p).
Proof.
  intros H Hp. destruct (make_node_ok s p H Hp) as (n & En & Np & Npar & Ng & Nf).
  unfold relax. destruct (find _ (opn s)) as [i|] eqn:F.
  - apply find_some in F. destruct F as [Fi Fp]. apply pos_eqb_eq in Fp.
    rewrite En. destruct (Qle_bool _ _) eqn:Q.
    + apply Qle_bool_iff in Q. set (s' := mkSt _ _ _ _). exists s'; split; auto.
      assert (Li : (i < length (heap s))%nat) by (apply Inv_open_len; auto).
      assert (Other : forall j, j <> i -> getn (heap s') j = getn (heap s) j).
      { intros; simpl; apply getn_upd_other; congruence. }
      assert (Same : getn (heap s') i = n) by (simpl; apply getn_upd_same; auto).
      assert (Pos : forall j, P s' j = P s j).
      { intros j. unfold P. destruct (Nat.eq_dec j i) as [->|N].
        - rewrite Same, Np. auto.
        - rewrite Other; auto. }
      assert (Cls : forall j, In j (cls s) -> getn (heap s') j = getn (heap s) j).
      { intros j Hj; apply Other. intros ->. eapply disj; eauto. }
      assert (Ci : child (heap s') (cur s) i).
      { unfold child. rewrite Same. rewrite (Cls (cur s)) by (apply cur_in_cls; auto).
        rewrite Np. repeat split; auto. }
      split; [|split; [|split; [|split]]].
      * constructor.
        -- intros j Hj. simpl. rewrite upd_length. apply (I_ids _ H); auto.
        -- rewrite (map_ext (P s') (P s)); auto. apply (I_nodup _ H).
        -- eapply CC_ext; [|apply (I_cc _ H)]. intros j Hj. apply in_rev in Hj. apply Cls; auto.
        -- intros j Hj. simpl in Hj. destruct (Nat.eq_dec j i) as [->|N].
           ++ exists (cur s); split; [apply cur_in_cls; auto|auto].
           ++ destruct (I_open _ H j Hj) as (k & Hk & Ck). exists k; split; auto.
              eapply child_ext; [| |eassumption]; auto.
        -- apply (I_cur _ H).
      * constructor; auto.
        -- simpl; rewrite upd_length; lia.
        -- exists []; rewrite app_nil_r; auto.
        -- intros j Hj. destruct (Nat.eq_dec j i) as [->|N].
           ++ rewrite Same; auto.
           ++ rewrite Other; auto. lra.
      * exists i; split. { apply in_or_app; auto. } rewrite Pos. symmetry; auto.
      * intros j Hj Pj. rewrite Pos in Pj.
        assert (j = i). { eapply NoDup_map_inj; [apply (I_nodup _ H)| | |].
          - apply in_or_app; left; auto. - apply in_or_app; left; auto. - rewrite Pj; auto. }
        subst j. rewrite Same, Ng. lra.
      * intros j Hj Hn; contradiction.
    + assert (Q' : (ng (getn (heap s) i) <= ng n)%Q).
      { destruct (Qlt_le_dec (ng (getn (heap s) i)) (ng n)); [lra|].
        apply Qle_bool_iff in q. congruence. }
      exists s; split; auto. split; [|split; [|split; [|split]]]; auto using Rel_refl.
      * exists i; split. { apply in_or_app; auto. } symmetry; auto.
      * intros j Hj Pj.
        assert (j = i). { eapply NoDup_map_inj; [apply (I_nodup _ H)| | |].
          - apply in_or_app; left; auto. - apply in_or_app; left; auto. - rewrite Pj; auto. }
        subst j. rewrite <- Ng. auto.
      * intros; contradiction.
  - destruct (existsb _ (cls s)) eqn:E.
    + apply existsb_exists in E. destruct E as (i & Hi & Ei). apply pos_eqb_eq in Ei.
      exists s; split; auto. split; [|split; [|split; [|split]]]; auto using Rel_refl.
      * exists i; split; [apply in_or_app; auto|symmetry; auto].
      * intros j Hj Pj. exfalso. pose proof (find_none _ _ F j Hj) as X. simpl in X.
        apply pos_eqb_neq in X. apply X. symmetry; auto.
      * intros; contradiction.
    + rewrite En. set (s' := mkSt _ _ _ _). exists s'; split; auto.
      assert (Fresh : ~ In p (map (P s) (ids s))).
      { intros X. apply in_map_iff in X. destruct X as (i & Pi & Hi).
        apply in_app_or in Hi. destruct Hi as [Hi|Hi].
        - pose proof (find_none _ _ F i Hi) as X. simpl in X. apply pos_eqb_neq in X. apply X; auto.
        - assert (X : existsb (fun i0 : nat => pos_eqb p (npos (getn (heap s) i0))) (cls s) = true).
          { apply existsb_exists. exists i; split; auto. apply pos_eqb_eq; auto. }
          rewrite X in E; discriminate. }
      assert (Old : forall j, (j < length (heap s))%nat -> getn (heap s') j = getn (heap s) j).
      { intros; simpl; apply getn_app_old; auto. }
      assert (New : getn (heap s') (length (heap s)) = n) by (simpl; apply getn_app_new).
      assert (Cls : forall j, In j (cls s) -> getn (heap s') j = getn (heap s) j).
      { intros j Hj; apply Old. apply Inv_cls_len; auto. }
      split; [|split; [|split; [|split]]].
      * constructor.
        -- intros j Hj. simpl. rewrite app_length; simpl. unfold ids in Hj; simpl in Hj.
           apply in_app_or in Hj. destruct Hj as [Hj|Hj].
           ++ apply in_app_or in Hj. destruct Hj as [Hj|[<-|[]]]; [|lia].
              pose proof (Inv_open_len _ _ H Hj); lia.
           ++ pose proof (Inv_cls_len _ _ H Hj); lia.
        -- unfold ids; simpl. rewrite <- app_assoc. simpl.
           apply (Permutation_NoDup (l := map (P s') (length (heap s) :: opn s ++ cls s))).
           { apply Permutation_map. apply Permutation_middle. }
           simpl. assert (M : map (P s') (opn s ++ cls s) = map (P s) (opn s ++ cls s)).
           { apply map_ext_in. intros j Hj. unfold P. rewrite Old; auto. apply (I_ids _ H); auto. }
           rewrite M. constructor; [|apply (I_nodup _ H)].
           unfold P at 1. rewrite New, Np. auto.
        -- eapply CC_ext; [|apply (I_cc _ H)]. intros j Hj. apply in_rev in Hj. apply Cls; auto.
        -- intros j Hj. simpl in Hj. apply in_app_or in Hj. destruct Hj as [Hj|[<-|[]]].
           ++ destruct (I_open _ H j Hj) as (k & Hk & Ck). exists k; split; auto.
              eapply child_ext; [| |eassumption]; [apply Cls; auto|apply Old; apply Inv_open_len; auto].
           ++ exists (cur s); split; [apply cur_in_cls; auto|]. unfold child. rewrite New.
              rewrite (Cls (cur s)) by (apply cur_in_cls; auto). rewrite Np. repeat split; auto.
        -- apply (I_cur _ H).
      * constructor; auto.
        -- simpl; rewrite app_length; lia.
        -- intros j Hj; unfold P; rewrite Old; auto.
        -- exists [length (heap s)]; auto.
        -- intros j Hj. rewrite Old by (apply Inv_open_len; auto). lra.
      * exists (length (heap s)); split.
        { unfold ids; simpl. apply in_or_app; left; apply in_or_app; right; simpl; auto. }
        unfold P; rewrite New; auto.
      * intros j Hj Pj. simpl in Hj. apply in_app_or in Hj. destruct Hj as [Hj|[<-|[]]].
        -- exfalso. apply Fresh. rewrite <- Pj. unfold P. rewrite Old by (apply Inv_open_len; auto).
           apply (in_map (P s)). apply in_or_app; auto.
        -- rewrite New, Ng. lra.
      * intros j Hj Hn. simpl in Hj. apply in_app_or in Hj. destruct Hj as [Hj|[<-|[]]].
        -- contradiction.
        -- unfold P; rewrite New; auto.
Qed.

Lemma Rel_trans s1 s2 s3 : Rel s1 s2 -> Rel s2 s3 -> Rel s1 s3.
Proof.
  intros [a1 a2 a3 a4 a5 [l1 a6] a7] [b1 b2 b3 b4 b5 [l2 b6] b7].
  constructor.
  - congruence.
  - congruence.
  - lia.
  - intros i Hi. rewrite b4, a4; auto. lia.
  - intros i Hi. rewrite b5, a5; auto. rewrite a1; auto.
  - exists (l1 ++ l2). rewrite b6, a6, app_assoc; auto.
  - intros i Hi. eapply Qle_trans; [apply b7|apply a7; auto]. rewrite a6. apply in_or_app; auto.
Qed.

Lemma Rel_ids s s' i : Rel s s' -> In i (ids s) -> In i (ids s').
Proof.
  intros [a1 a2 a3 a4 a5 [l1 a6] a7] Hi. unfold ids in *. rewrite a1, a6.
  apply in_app_or in Hi. apply in_or_app. destruct Hi; [left; apply in_or_app; auto|auto].
Qed.

Lemma Rel_cur s s' : Inv s -> Rel s s' -> getn (heap s') (cur s') = getn (heap s) (cur s).
Proof.
  intros H R. rewrite (R_cur _ _ R). apply (R_clsn _ _ R). apply cur_in_cls; auto.
Qed.

Lemma relax_all_ok ps : forall s, Inv s ->
  (forall p, In p ps -> In p (get_neighbors G (P s (cur s)))) ->
  exists s', relax_all pl s ps = Ok s' /\ Inv s' /\ Rel s s' /\
    (forall p, In p ps -> exists i, In i (ids s') /\ P s' i = p) /\
    (forall i, In i (opn s') -> In (P s' i) ps ->
       (ng (getn (heap s') i) <= mlen (P s (cur s)) (P s' i) + ng (getn (heap s) (cur s)))%Q) /\
    (forall i, In i (opn s') -> ~ In i (opn s) -> In (P s' i) ps).
Proof.
  induction ps as [|p ps IH]; intros s H Hps.
  - exists s; simpl. split; auto. split; auto. split; [apply Rel_refl|].
    split; [tauto|]. split; [tauto|]. intros; contradiction.
  - destruct (relax_ok s p H) as (s1 & E1 & H1 & R1 & A1 & B1 & C1). { apply Hps; simpl; auto. }
    assert (EC : getn (heap s1) (cur s1) = getn (heap s) (cur s)) by (apply Rel_cur; auto).
    assert (EP : P s1 (cur s1) = P s (cur s)) by (unfold P; rewrite EC; auto).
    destruct (IH s1 H1) as (s2 & E2 & H2 & R2 & A2 & B2 & C2).
    { intros q Hq. rewrite EP. apply Hps; simpl; auto. }
    exists s2; simpl. rewrite E1. split; auto. split; auto.
    split; [eapply Rel_trans; eauto|].
    split; [|split].
    + intros q [<-|Hq]; auto. destruct A1 as (i & Hi & Pi). exists i; split.
      * eapply Rel_ids; eauto.
      * rewrite (R_pos _ _ R2); auto. apply (I_ids _ H1); auto.
    + intros i Hi Hp. rewrite EP, EC in B2.
      destruct Hp as [Hp|Hp]; [|auto].
      destruct (in_dec Nat.eq_dec i (opn s1)) as [Y|N].
      * assert (Pi : P s2 i = P s1 i).
        { apply (R_pos _ _ R2). apply Inv_open_len; auto. }
        rewrite <- Hp. eapply Qle_trans; [apply (R_g _ _ R2); auto|].
        apply B1; auto. congruence.
      * apply B2; auto.
    + intros i Hi Hn. destruct (in_dec Nat.eq_dec i (opn s1)) as [Y|N].
      * left. rewrite (R_pos _ _ R2); [|apply Inv_open_len; auto]. symmetry; apply C1; auto.
      * right. apply C2; auto.
Qed.

(* ---------- selecting and moving a node ---------- *)
Lemma lowest_fold h l b :
  exists c, fold_left (lowest_step h) l (Some b) = Some c /\ In c (b :: l) /\
    forall i, In i (b :: l) -> (nf (getn h c) <= nf (getn h i))%Q.
Proof.
  revert b; induction l as [|a l IH]; intros b.
  - exists b; simpl. split; auto. split; auto. intros i [->|[]]; lra.
  - cbn [fold_left]. unfold lowest_step at 2.
    unfold Qltb. destruct (Qle_bool (nf (getn h b)) (nf (getn h a))) eqn:E; simpl negb; cbv iota.
    + apply Qle_bool_iff in E. destruct (IH b) as (c & Ec & Hc & M). exists c; split; auto. split.
      * simpl in *; tauto.
      * intros i [->|[->|Hi]].
        -- apply M; simpl; auto.
        -- eapply Qle_trans; [apply M; simpl; left; reflexivity|auto].
        -- apply M; simpl; auto.
    + assert (E' : (nf (getn h a) <= nf (getn h b))%Q).
      { destruct (Qlt_le_dec (nf (getn h a)) (nf (getn h b))) as [Y|Y]; [lra|].
        apply Qle_bool_iff in Y. congruence. }
      destruct (IH a) as (c & Ec & Hc & M). exists c; split; auto. split.
      * simpl in *; tauto.
      * intros i [->|[->|Hi]].
        -- eapply Qle_trans; [apply M; simpl; left; reflexivity|auto].
        -- apply M; simpl; auto.
        -- apply M; simpl; auto.
Qed.

Lemma get_lowest_some h l : l <> [] ->
  exists c, get_lowest h l = Some c /\ In c l /\
    forall i, In i l -> (nf (getn h c) <= nf (getn h i))%Q.
Proof.
  destruct l as [|b l]; [congruence|]. intros _. unfold get_lowest. simpl.
  apply lowest_fold.
Qed.

Lemma remove_first_perm c l : In c l -> Permutation l (c :: remove_first c l).
Proof.
  induction l as [|a l IH]; simpl; [tauto|]. intros H.
  destruct (Nat.eqb_spec a c) as [->|N]; auto.
  destruct H as [H|H]; [congruence|]. rewrite (IH H) at 1. apply perm_swap.
Qed.

Definition pop (s : st) (c : nat) : st :=
  mkSt (heap s) c (remove_first c (opn s)) (cls s ++ [c]).

Lemma pop_ids s c : In c (opn s) -> Permutation (ids s) (ids (pop s c)).
Proof.
  intros H. unfold ids, pop; simpl. rewrite (remove_first_perm c (opn s) H) at 1. simpl.
  rewrite app_assoc. rewrite Permutation_app_comm. simpl.
  apply Permutation_cons_append.
Qed.

Lemma pop_inv s c : Inv s -> In c (opn s) -> Inv (pop s c).
Proof.
  intros H Hc. pose proof (pop_ids s c Hc) as Pm. constructor.
  - intros i Hi. simpl. apply (I_ids _ H). eapply Permutation_in; [symmetry; apply Pm|auto].
  - eapply Permutation_NoDup; [|apply (I_nodup _ H)]. change (P (pop s c)) with (P s).
    apply Permutation_map; auto.
  - simpl. rewrite rev_app_distr. simpl.
    destruct (I_open _ H c Hc) as (j & Hj & Cj). apply CC_cons with j; auto.
    + apply (I_cc _ H).
    + rewrite <- in_rev; auto.
  - simpl. intros i Hi.
    assert (Hi' : In i (opn s)).
    { eapply Permutation_in; [symmetry; apply (remove_first_perm c); auto|simpl; auto]. }
    destruct (I_open _ H i Hi') as (j & Hj & Cj). exists j; split; auto. apply in_or_app; auto.
  - exists (cls s); auto.
Qed.

Lemma init_inv : Inv (init start).
Proof.
  constructor; simpl.
  - intros i [<-|[]]; simpl; lia.
  - constructor; [simpl; tauto|constructor].
  - constructor; auto.
  - tauto.
  - exists []; auto.
Qed.

(* ---------- frontier invariant ---------- *)
(* every closed node but the current one has been expanded *)
Definition seen (s : st) (p : pos) : Prop := exists i, In i (ids s) /\ P s i = p.
Record Front (s : st) : Prop := {
  F_exp : forall c q, In c (cls s) -> c <> cur s -> In q (get_neighbors G (P s c)) -> seen s q;
  F_le : forall c o, In c (cls s) -> c <> cur s -> In o (opn s) ->
         In (P s o) (get_neighbors G (P s c)) ->
         (ng (getn (heap s) o) <= mlen (P s c) (P s o) + ng (getn (heap s) c))%Q;
  F_goal : forall c, In c (cls s) -> c <> cur s -> P s c <> pgoal pl;
  F_next : opn s = [] -> exists q, In q (get_neighbors G (P s (cur s))) /\ ~ seen s q
           \/ P s (cur s) = pgoal pl \/ cls s = [cur s]
}.

Lemma init_front : Front (init start).
Proof.
  constructor; simpl; try (intros c ? [<-|[]] N; congruence).
  - intros c [<-|[]] N; congruence.
  - intros _. exists start. auto.
Qed.

Lemma Rel_seen s s' p : Inv s -> Rel s s' -> seen s p -> seen s' p.
Proof.
  intros H R (i & Hi & Pi). exists i; split; [eapply Rel_ids; eauto|].
  rewrite (R_pos _ _ R); auto. apply (I_ids _ H); auto.
Qed.

Lemma Rel_P_cls s s' c : Rel s s' -> In c (cls s) -> P s' c = P s c.
Proof. intros R Hc. unfold P. rewrite (R_clsn _ _ R); auto. Qed.

(* state after the relaxation of all neighbours of the current node *)
Record Exp (s1 : st) : Prop := {
  X_exp : forall c q, In c (cls s1) -> In q (get_neighbors G (P s1 c)) -> seen s1 q;
  X_le : forall c o, In c (cls s1) -> In o (opn s1) ->
         In (P s1 o) (get_neighbors G (P s1 c)) ->
         (ng (getn (heap s1) o) <= mlen (P s1 c) (P s1 o) + ng (getn (heap s1) c))%Q;
  X_goal : forall c, In c (cls s1) -> P s1 c <> pgoal pl
}.

Lemma expand_ok s : Inv s -> Front s -> P s (cur s) <> pgoal pl ->
  exists s1, relax_all pl s (get_neighbors G (P s (cur s))) = Ok s1 /\
    Inv s1 /\ Rel s s1 /\ Exp s1.
Proof.
  intros H F Hg.
  destruct (relax_all_ok (get_neighbors G (P s (cur s))) s H) as (s1 & E & H1 & R & A & B & C); auto.
  exists s1. split; auto. split; auto. split; auto.
  constructor.
  - intros c q Hc Hq. rewrite (R_cls _ _ R) in Hc. rewrite (Rel_P_cls _ _ _ R Hc) in Hq.
    destruct (Nat.eq_dec c (cur s)) as [->|N]; [apply A; auto|].
    apply (Rel_seen s s1 q H R). apply (F_exp _ F c); auto.
  - intros c o Hc Ho Hq. rewrite (R_cls _ _ R) in Hc. rewrite (Rel_P_cls _ _ _ R Hc) in *.
    rewrite (R_clsn _ _ R c Hc).
    destruct (Nat.eq_dec c (cur s)) as [->|N]; [apply B; auto|].
    destruct (in_dec Nat.eq_dec o (opn s)) as [Y|No].
    + assert (Po : P s1 o = P s o) by (apply (R_pos _ _ R); apply Inv_open_len; auto).
      rewrite Po in *. eapply Qle_trans; [apply (R_g _ _ R); auto|]. apply (F_le _ F); auto.
    + exfalso. destruct (F_exp _ F c _ Hc N Hq) as (i & Hi & Pi).
      assert (i = o).
      { eapply NoDup_map_inj; [apply (I_nodup _ H1)| | |].
        - eapply Rel_ids; eauto.
        - apply in_or_app; left; auto.
        - rewrite (R_pos _ _ R); auto. apply (I_ids _ H); auto. }
      subst i. apply in_app_or in Hi. destruct Hi as [Hi|Hi]; [auto|].
      apply (disj s1 o H1); auto. rewrite (R_cls _ _ R); auto.
  - intros c Hc. rewrite (R_cls _ _ R) in Hc. rewrite (Rel_P_cls _ _ _ R Hc).
    destruct (Nat.eq_dec c (cur s)) as [->|N]; auto. apply (F_goal _ F); auto.
Qed.

Lemma expand_open s s1 : Inv s -> Front s -> P s (cur s) <> pgoal pl -> Inv s1 -> Rel s s1 -> Exp s1 ->
  get_neighbors G (P s (cur s)) <> [] -> opn s1 <> [].
Proof.
  intros H F Hg H1 R X Hn Ho.
  assert (Ho0 : opn s = []).
  { destruct (R_opn _ _ R) as [l El]. rewrite Ho in El. symmetry in El. apply app_eq_nil in El. tauto. }
  assert (Q : exists q, In q (get_neighbors G (P s (cur s))) /\ ~ seen s q).
  { destruct (F_next _ F Ho0) as [q [Hq|[Hq|Hq]]]; [exists q; auto|congruence|].
    destruct (get_neighbors G (P s (cur s))) as [|q0 l] eqn:En; [congruence|].
    exists q0; split; [left; auto|]. intros (i & Hi & Pi).
    unfold ids in Hi; rewrite Ho0, Hq in Hi; simpl in Hi. destruct Hi as [<-|[]].
    assert (In q0 (get_neighbors G (P s (cur s)))) by (rewrite En; left; auto).
    apply neighbors_neq in H0. congruence. }
  destruct Q as (q & Hq & Nq).
  assert (Hc : In (cur s) (cls s1)) by (rewrite (R_cls _ _ R); apply cur_in_cls; auto).
  destruct (X_exp _ X (cur s) q Hc) as (i & Hi & Pi).
  { rewrite (Rel_P_cls _ _ _ R); auto. apply cur_in_cls; auto. }
  unfold ids in Hi; rewrite Ho in Hi; simpl in Hi.
  apply Nq. exists i. rewrite (R_cls _ _ R) in Hi. split; [apply in_or_app; auto|].
  rewrite <- (Rel_P_cls _ _ _ R); auto.
Qed.

Lemma pop_front s1 c : Inv s1 -> Exp s1 -> In c (opn s1) ->
  (opn (pop s1 c) <> [] \/ exists q, In q (get_neighbors G (P s1 c)) /\ ~ seen (pop s1 c) q) ->
  Front (pop s1 c).
Proof.
  intros H X Hc HN.
  assert (Cl : forall d, In d (cls (pop s1 c)) -> d <> c -> In d (cls s1)).
  { simpl; intros d Hd N. apply in_app_or in Hd. destruct Hd as [Hd|[->|[]]]; congruence. }
  assert (Sn : forall q, seen s1 q -> seen (pop s1 c) q).
  { intros q (i & Hi & Pi). exists i; split; auto. eapply Permutation_in; [apply pop_ids; auto|auto]. }
  constructor.
  - intros d q Hd N Hq. apply Sn. apply (X_exp _ X d); auto.
  - intros d o Hd N Ho Hq. apply (X_le _ X d o); auto.
    simpl in Ho. eapply Permutation_in; [symmetry; apply (remove_first_perm c); auto|simpl; auto].
  - intros d Hd N. apply (X_goal _ X); auto.
  - intros Ho. destruct HN as [HN|[q Hq]]; [congruence|]. exists q; left; auto.
Qed.

Lemma seen_closed s c kp : kp = map (fun i => npos (getn (heap s) i)) (cls s ++ [c]) ->
  remove_first c (opn s) = [] -> In c (opn s) -> forall q, mem_pos q kp = true <-> seen (pop s c) q.
Proof.
  intros -> E Hc q. rewrite mem_pos_In, in_map_iff. unfold seen, ids; simpl. rewrite E. simpl.
  split; intros (i & A & B); exists i; auto.
Qed.

(* one iteration *)
Inductive iter_spec (s : st) : res st -> Prop :=
| IS_none : get_neighbors G (P s (cur s)) = [] -> iter_spec s (Err ENoNeighbors)
| IS_nopath s1 c : Inv s1 -> Rel s s1 -> Exp s1 -> In c (opn s1) -> Inv (pop s1 c) ->
    opn (pop s1 c) = [] -> (forall q, In q (get_neighbors G (P s1 c)) -> seen (pop s1 c) q) ->
    iter_spec s (Err ENoPath)
| IS_ok s1 c : Inv s1 -> Rel s s1 -> Exp s1 -> In c (opn s1) ->
    (forall i, In i (opn s1) -> (nf (getn (heap s1) c) <= nf (getn (heap s1) i))%Q) ->
    Inv (pop s1 c) -> Front (pop s1 c) -> iter_spec s (Ok (pop s1 c)).

Lemma iter_ok s : Inv s -> Front s -> P s (cur s) <> pgoal pl -> iter_spec s (iter pl s).
Proof.
  intros H F Hg. unfold iter. cbv zeta. fold G. rewrite P_eq.
  destruct (get_neighbors G (P s (cur s))) as [|q0 l0] eqn:En; [constructor; auto|].
  rewrite <- En.
  destruct (expand_ok s H F Hg) as (s1 & E1 & H1 & R1 & X1). rewrite E1.
  assert (Ho : opn s1 <> []).
  { apply (expand_open s s1); auto. rewrite En; discriminate. }
  destruct (get_lowest_some (heap s1) (opn s1) Ho) as (c & Ec & Hc & M). rewrite Ec.
  cbv zeta. fold (pop s1 c).
  pose proof (pop_inv s1 c H1 Hc) as H2.
  destruct (remove_first c (opn s1)) as [|o0 ol] eqn:Er.
  - change (npos (getn (heap s1) c)) with (P s1 c).
    pose proof (seen_closed s1 c _ eq_refl Er Hc) as SC.
    assert (D : forallb (fun q => mem_pos q (map (fun i => npos (getn (heap s1) i)) (cls s1 ++ [c])))
                  (get_neighbors G (P s1 c)) = true \/
                exists q, In q (get_neighbors G (P s1 c)) /\ ~ seen (pop s1 c) q).
    { destruct (forallb _ _) eqn:Ef; auto. right.
      assert (Y : exists q, In q (get_neighbors G (P s1 c)) /\
         mem_pos q (map (fun i => npos (getn (heap s1) i)) (cls s1 ++ [c])) = false).
      { clear - Ef. induction (get_neighbors G (P s1 c)) as [|a l IH]; simpl in Ef; [discriminate|].
        apply andb_false_iff in Ef. destruct Ef as [Ef|Ef].
        - exists a; split; [left; auto|auto].
        - destruct (IH Ef) as (q & A & B). exists q; split; [right; auto|auto]. }
      destruct Y as (q & A & B). exists q; split; auto. rewrite <- SC. congruence. }
    assert (NP : (forall q, In q (get_neighbors G (P s1 c)) -> seen (pop s1 c) q) ->
       iter_spec s (Err ENoPath)).
    { intros Y. apply (IS_nopath s s1 c); auto. }
    assert (OKc : (exists q, In q (get_neighbors G (P s1 c)) /\ ~ seen (pop s1 c) q) ->
       iter_spec s (Ok (pop s1 c))).
    { intros Y. apply IS_ok; auto. apply pop_front; auto. }

    destruct (get_neighbors G (P s1 c)) as [|q1 l1] eqn:E2.
    + apply NP. intros q [].
    + destruct (forallb _ _) eqn:Ef.
      * apply NP. intros q Hq. apply SC. rewrite forallb_forall in Ef. apply Ef; auto.
      * apply OKc. destruct D as [D|D]; [discriminate|auto].
  - apply IS_ok; auto. apply pop_front; auto.
    left. simpl. rewrite Er. discriminate.
Qed.

End Inv.
