(** Transformation of the shared splines. *)
From Coq Require Import Reals String List Bool Arith Lia Lra.
From Verif Require Import Spline_Model Spline_Spec Shift_Model Shift_Spec Vehicle_Model Share_Model Share_Spec Share_Proofs.
Import ListNotations.
Local Open Scope list_scope.
Local Open Scope nat_scope.
Local Notation length := List.length.

Lemma nth_first : forall (l : list R) n i, i < n -> nth i (firstn n l) 0%R = nth i l 0%R.
Proof. induction l as [|a l IH]; intros n i H; [rewrite firstn_nil; reflexivity|]. destruct n; [lia|]. destruct i; [reflexivity|]. cbn. apply IH. lia. Qed.
Lemma nth_skip : forall (l : list R) n i, nth i (skipn n l) 0%R = nth (n + i) l 0%R.
Proof. induction l as [|a l IH]; intros n i; destruct n; cbn [skipn Nat.add nth]; auto. destruct i; reflexivity. Qed.

Lemma step_length : forall tf n ind v l w, spline_step tf n ind (Some v) l = Some w -> length w = length v.
Proof.
  intros tf n ind v l w E. unfold spline_step in E. destruct (forallb _ _); [|injection E as <-; reflexivity].
  destruct (_ <=? _) eqn:LE; [|discriminate]. apply Nat.leb_le in LE. destruct (tf _) as [u|]; [|discriminate].
  destruct (length u =? n) eqn:LU; [|discriminate]. apply Nat.eqb_eq in LU. injection E as <-.
  rewrite !app_length, firstn_length, skipn_length. lia.
Qed.
Lemma steps_none : forall tf n ind ls, fold_left (spline_step tf n ind) ls None = None.
Proof. intros tf n ind ls. induction ls; cbn; auto. Qed.
Theorem leaf_length : forall tf n ind v w, transform_leaf tf n ind v = Some w -> length w = length v.
Proof.
  intros tf n ind v w. unfold transform_leaf. generalize (seq 0 n) as ls. intros ls. revert v.
  induction ls as [|l ls IH]; intros v E; cbn [fold_left] in E; [injection E as <-; reflexivity|].
  destruct (spline_step tf n ind (Some v) l) as [u|] eqn:S1; [|rewrite steps_none in E; discriminate].
  rewrite (IH u E). exact (step_length _ _ _ _ _ _ S1).
Qed.
(** all leaves *)
Lemma transform_none : forall spl q, fold_left (fun d e =>
    match d with None => None | Some d => match spl (fst e) with None => Some d | Some (n, tf) =>
      match find d (fst e) with None => None | Some v => match transform_leaf tf n (snd e) v with None => None | Some w => Some (put d (fst e) w) end end end end) q None = None.
Proof. intros spl q. induction q; cbn; auto. Qed.
Theorem transform_all : forall spl q d d', NoDup (map fst q) -> matches q d -> (transform spl q d = Some d' <-> all_done spl q d d').
Proof.
  intros spl q d d' N M. unfold transform.
  assert (G : forall q2 q1 d1 d2, q = q1 ++ q2 -> map fst d1 = map fst q1 -> matches q2 d2 ->
    (fold_left (fun d e => match d with None => None | Some d => match spl (fst e) with None => Some d | Some (n, tf) =>
      match find d (fst e) with None => None | Some v => match transform_leaf tf n (snd e) v with None => None | Some w => Some (put d (fst e) w) end end end end) q2 (Some (d1 ++ d2)) = Some d'
     <-> exists d3, d' = d1 ++ d3 /\ all_done spl q2 d2 d3)).
  { induction q2 as [|[k ind] q2 IH]; intros q1 d1 d2 Q K M2.
    - rewrite (matches_nil_l d2 M2). cbn [fold_left]. split.
      + intros E. injection E as <-. exists []. split; [reflexivity|exact I].
      + intros (d3 & -> & A). destruct d3; [reflexivity|destruct A].
    - destruct (matches_cons k ind q2 d2 M2) as (v & d2' & -> & L & M2'). cbn [fold_left fst snd].
      assert (NK : ~ In k (map fst d1)). { rewrite K. apply (nodup_mid q1 k ind q2). rewrite <- Q. exact N. }
      assert (ST : forall w, (fold_left (fun d e => match d with None => None | Some d => match spl (fst e) with None => Some d | Some (n, tf) =>
         match find d (fst e) with None => None | Some v => match transform_leaf tf n (snd e) v with None => None | Some w => Some (put d (fst e) w) end end end end) q2 (Some (d1 ++ (k, w) :: d2')) = Some d'
         <-> exists d3, d' = d1 ++ (k, w) :: d3 /\ all_done spl q2 d2' d3)).
      { intros w. replace (d1 ++ (k, w) :: d2') with ((d1 ++ [(k, w)]) ++ d2') by (rewrite <- app_assoc; reflexivity).
        rewrite (IH (q1 ++ [(k, ind)]) (d1 ++ [(k, w)]) d2').
        - split; intros (d3 & E & A); exists d3; (split; [|exact A]); rewrite E, <- app_assoc; reflexivity.
        - rewrite <- app_assoc. exact Q.
        - rewrite !map_app, K. reflexivity.
        - exact M2'. }
      destruct (spl k) as [[n tf]|] eqn:SK.
      + rewrite (find_at d1 k v d2' NK). destruct (transform_leaf tf n ind v) as [w|] eqn:TL.
        * rewrite put_at by exact NK. rewrite ST. split.
          -- intros (d3 & E & A). exists ((k, w) :: d3). split; [exact E|]. cbn [all_done]. rewrite SK. auto.
          -- intros (d3 & E & A). destruct d3 as [|[k2 w2] d3]; [destruct A|]. cbn [all_done] in A. destruct A as (_ & -> & T & A).
             rewrite SK, TL in T. injection T as <-. exists d3. auto.
        * rewrite transform_none. split; [discriminate|]. intros (d3 & E & A). destruct d3 as [|[k2 w2] d3]; [destruct A|].
          cbn [all_done] in A. destruct A as (_ & _ & T & _). rewrite SK, TL in T. discriminate.
      + rewrite ST. split.
        * intros (d3 & E & A). exists ((k, v) :: d3). split; [exact E|]. cbn [all_done]. rewrite SK. auto.
        * intros (d3 & E & A). destruct d3 as [|[k2 w2] d3]; [destruct A|]. cbn [all_done] in A. destruct A as (_ & -> & T & A).
          rewrite SK in T. subst w2. exists d3. auto. }
  rewrite (G q [] [] d eq_refl eq_refl M). split.
  - intros (d3 & E & A). cbn in E. subst d3. exact A.
  - intros A. exists d'. auto.
Qed.
Lemma all_done_matches : forall spl q d d', matches q d -> all_done spl q d d' -> matches q d'.
Proof.
  intros spl q. induction q as [|[k ind] q IH]; intros d d' M A.
  - rewrite (matches_nil_l d M) in A. destruct d'; [split; reflexivity|destruct A].
  - destruct (matches_cons k ind q d M) as (v & d2 & -> & L & M2). destruct d' as [|[k2 w] d']; [destruct A|].
    cbn [all_done] in A. destruct A as (_ & -> & T & A). destruct (IH d2 d' M2 A) as (K & S).
    assert (length w = length ind). { destruct (spl k) as [[n tf]|]; [rewrite (leaf_length _ _ _ _ _ T); exact L|congruence]. }
    split; cbn; congruence.
Qed.
Lemma levelled_keys : forall d d', map fst d = map fst d' -> levelled d -> levelled d'.
Proof.
  intros d d' K (p & w & r & l & -> & HP & LV). destruct d' as [|[p' w'] r']; [discriminate|]. cbn in K. injection K as <- _.
  exists p, w', r', l. auto.
Qed.
Theorem transform_struct_all : forall spl q d v', NoDup (map fst q) -> matches q d -> levelled d ->
  (transform_struct spl q (laid_out d) = Some v' <-> exists d', all_done spl q d d' /\ v' = laid_out d').
Proof.
  intros spl q d v' N M LV. assert (NE : q <> []). { intros ->. rewrite (matches_nil_l d M) in LV. destruct LV as (? & ? & ? & ? & E & _). discriminate. }
  unfold transform_struct. rewrite (struct_to_dict q d N NE M). split.
  - intros E. destruct (transform spl q d) as [d'|] eqn:T; [|discriminate]. apply (transform_all spl q d d' N M) in T. exists d'. split; [exact T|].
    pose proof (all_done_matches spl q d d' M T) as M'.
    rewrite (dict_to_struct q d' N M') in E; [congruence|]. apply (levelled_keys d d'); [rewrite (matches_keys q d M), (matches_keys q d' M'); reflexivity|exact LV].
  - intros (d' & A & ->). pose proof (all_done_matches spl q d d' M A) as M'. apply (transform_all spl q d d' N M) in A. rewrite A.
    apply dict_to_struct; auto. apply (levelled_keys d d'); [rewrite (matches_keys q d M), (matches_keys q d' M'); reflexivity|exact LV].
Qed.

(** ** consecutive indices *)
Lemma forallb_seq : forall n a m l, 0 < n -> (forallb (fun i => existsb (Nat.eqb i) (seq a m)) (seq (l * n) n) = true <-> complete n a m l).
Proof.
  intros n a m l Hn. rewrite forallb_forall. unfold complete. split.
  - intros H. assert (A : forall i, l * n <= i < l * n + n -> a <= i < a + m).
    { intros i Hi. specialize (H i ltac:(apply in_seq; lia)). apply existsb_exists in H. destruct H as (x & I & E). apply Nat.eqb_eq in E. subst x. apply in_seq in I. lia. }
    pose proof (A (l * n) ltac:(lia)). pose proof (A (l * n + n - 1) ltac:(lia)). lia.
  - intros H i I. apply in_seq in I. apply existsb_exists. exists i. split; [apply in_seq; lia|apply Nat.eqb_refl].
Qed.
Lemma hd_seq : forall a m, 0 < m -> hd 0 (seq a m) = a.
Proof. intros a m H. destruct m; [lia|reflexivity]. Qed.
Theorem leaf_consecutive : forall tf f n a m v, 0 < n -> length v = m ->
  (forall w, length w = n -> tf w = Some (f w) /\ length (f w) = n) ->
  exists v', transform_leaf tf n (seq a m) v = Some v' /\ length v' = m /\
  (forall l i, l < n -> complete n a m l -> i < n -> nth (l * n - a + i) v' 0%R = nth i (f (firstn n (skipn (l * n - a) v))) 0%R) /\
  (forall i, (forall l, l < n -> complete n a m l -> ~ (l * n <= a + i < l * n + n)) -> nth i v' 0%R = nth i v 0%R).
Proof.
  intros tf f n a m v Hn LV TF. unfold transform_leaf.
  assert (G : forall k, k <= n -> exists v', fold_left (spline_step tf n (seq a m)) (seq 0 k) (Some v) = Some v' /\ length v' = m /\
    (forall l i, l < k -> complete n a m l -> i < n -> nth (l * n - a + i) v' 0%R = nth i (f (firstn n (skipn (l * n - a) v))) 0%R) /\
    (forall i, (forall l, l < k -> complete n a m l -> ~ (l * n <= a + i < l * n + n)) -> nth i v' 0%R = nth i v 0%R)).
  { induction k as [|k IH]; intros Hk.
    - exists v. repeat split; auto. intros l i Hl. lia.
    - destruct (IH ltac:(lia)) as (v1 & E1 & L1 & D1 & U1). rewrite seq_S, fold_left_app, E1. cbn [fold_left Nat.add].
      unfold spline_step. destruct (forallb _ _) eqn:FB.
      + apply forallb_seq in FB; [|exact Hn]. pose proof FB as FB'. unfold complete in FB'.
        rewrite hd_seq by nia.
        assert (LE : (k * n - a + n <=? length v1) = true) by (apply Nat.leb_le; nia). rewrite LE.
        assert (EQ : firstn n (skipn (k * n - a) v1) = firstn n (skipn (k * n - a) v)).
        { apply (nth_ext _ _ 0%R 0%R).
          - rewrite !firstn_length, !skipn_length. lia.
          - intros i Hi. rewrite firstn_length, skipn_length in Hi. rewrite !nth_first, !nth_skip by lia. apply U1.
            intros l Hl C. nia. }
        rewrite EQ. destruct (TF (firstn n (skipn (k * n - a) v))) as (T1 & T2); [rewrite firstn_length, skipn_length; nia|].
        rewrite T1, (proj2 (Nat.eqb_eq _ _) T2).
        set (w := f (firstn n (skipn (k * n - a) v))) in *. eexists. split; [reflexivity|]. split; [rewrite !app_length, firstn_length, skipn_length; nia|].
        assert (LF : length (firstn (k * n - a) v1) = k * n - a) by (rewrite firstn_length; nia). split.
        * intros l i Hl C Hi. destruct (Nat.eq_dec l k) as [->|NE].
          -- rewrite app_nth2 by lia. rewrite LF. rewrite app_nth1 by lia. unfold w. f_equal. lia.
          -- rewrite app_nth1 by (unfold complete in C; nia). rewrite nth_first by (unfold complete in C; nia). apply D1; auto. lia.
        * intros i Hi. destruct (Nat.lt_ge_cases i (k * n - a)) as [LT|GE].
          -- rewrite app_nth1 by lia. rewrite nth_first by lia. apply U1. intros l Hl C. apply Hi; [lia|exact C].
          -- assert (k * n - a + n <= i). { specialize (Hi k ltac:(lia) FB). lia. }
             rewrite app_nth2 by lia. rewrite app_nth2 by lia. rewrite nth_skip, LF, T2. replace (k * n - a + n + (i - (k * n - a) - n)) with i by lia.
             apply U1. intros l Hl C. apply Hi; [lia|exact C].
      + exists v1. split; [reflexivity|]. split; [exact L1|].
        assert (NC : ~ complete n a m k). { intros C. apply forallb_seq in C; [|exact Hn]. congruence. }
        split.
        * intros l i Hl C Hi. destruct (Nat.eq_dec l k) as [->|NE]; [contradiction|]. apply D1; auto. lia.
        * intros i Hi. apply U1. intros l Hl C. apply Hi; [lia|exact C]. }
  exact (G n (le_n n)).
Qed.
Theorem leaf_blocks : forall tf f n k v, 0 < n -> k <= n -> length v = k * n -> (forall w, length w = n -> tf w = Some (f w) /\ length (f w) = n) ->
  exists v', transform_leaf tf n (seq 0 (k * n)) v = Some v' /\ length v' = k * n /\ forall j, j < k -> block n j v' = f (block n j v).
Proof.
  intros tf f n k v Hn Hk L TF. destruct (leaf_consecutive tf f n 0 (k * n) v Hn L TF) as (v' & E & L' & D & _).
  exists v'. split; [exact E|]. split; [exact L'|]. intros j Hj. apply (nth_ext _ _ 0%R 0%R).
  - destruct (TF (block n j v)) as (_ & T); [unfold block; rewrite firstn_length, skipn_length; nia|]. rewrite T.
    unfold block. rewrite firstn_length, skipn_length. nia.
  - intros i Hi. unfold block in *. rewrite firstn_length, skipn_length in Hi. rewrite nth_first, nth_skip by lia.
    specialize (D j i ltac:(lia) ltac:(unfold complete; nia) ltac:(lia)). rewrite Nat.sub_0_r in D. exact D.
Qed.
(** one partial transformation; a spline whose transformation raises raises *)
Lemma leaf_partial : forall tf n k v v', 0 < n -> k <= n -> length v = k * n -> transform_leaf tf n (seq 0 (k * n)) v = Some v' ->
  forall j, j < k -> tf (block n j v) = Some (block n j v').
Proof.
  intros tf n k v v' Hn Hk L E j Hj. revert E. unfold transform_leaf.
  assert (G : forall p v', p <= n -> fold_left (spline_step tf n (seq 0 (k * n))) (seq 0 p) (Some v) = Some v' ->
    length v' = k * n /\ (forall i, i < p -> i < k -> tf (block n i v) = Some (block n i v')) /\ (forall i, p <= i -> i < k -> block n i v' = block n i v)).
  { clear v' j Hj. induction p as [|p IH]; intros v' Hp E.
    - cbn in E. injection E as <-. repeat split; auto. intros i Hi. lia.
    - rewrite seq_S, fold_left_app in E. destruct (fold_left _ (seq 0 p) (Some v)) as [v1|] eqn:E1; [|discriminate E].
      destruct (IH v1 ltac:(lia) eq_refl) as (L1 & D1 & U1). clear IH.
      cbn [fold_left Nat.add] in E. pose proof (step_length _ _ _ _ _ _ E) as L2. split; [congruence|]. unfold spline_step in E.
      destruct (forallb _ _) eqn:FB.
      + apply forallb_seq in FB; [|exact Hn]. unfold complete in FB. rewrite hd_seq in E by nia. rewrite Nat.sub_0_r in E.
        destruct (_ <=? _) eqn:LE in E; [|discriminate]. destruct (tf _) as [w|] eqn:TW in E; [|discriminate].
        destruct (length w =? n) eqn:LW in E; [|discriminate]. apply Nat.eqb_eq in LW. injection E as <-.
        assert (LF : length (firstn (p * n) v1) = p * n) by (rewrite firstn_length; nia).
        assert (OTHER : forall i, i < k -> i <> p -> block n i (firstn (p * n) v1 ++ w ++ skipn (p * n + n) v1) = block n i v1).
        { intros i Hi NE. apply (nth_ext _ _ 0%R 0%R); unfold block; [rewrite !firstn_length, !skipn_length, !app_length, LF, skipn_length; nia|].
          intros x Hx. rewrite firstn_length, skipn_length in Hx. rewrite !nth_first, !nth_skip by lia.
          destruct (Nat.lt_ge_cases i p).
          - rewrite app_nth1 by nia. apply nth_first. nia.
          - rewrite app_nth2 by nia. rewrite app_nth2 by nia. rewrite nth_skip, LF, LW. f_equal. nia. }
        assert (THIS : block n p (firstn (p * n) v1 ++ w ++ skipn (p * n + n) v1) = w).
        { unfold block. rewrite skipn_len by lia. apply firstn_len. lia. }
        split.
        * intros i Hi Hk2. destruct (Nat.eq_dec i p) as [->|NE]; [|rewrite OTHER by auto; apply D1; lia].
          rewrite THIS. rewrite <- (U1 p (le_n p) Hk2). exact TW.
        * intros i Hi Hk2. rewrite OTHER by lia. apply U1; lia.
      + injection E as <-. assert (NC : ~ p < k). { intros C. enough (complete n 0 (k * n) p) by (apply forallb_seq in H; [congruence|exact Hn]). unfold complete. nia. }
        split; [intros i Hi Hk2; apply D1; lia|intros i Hi Hk2; lia]. }
  intros E. destruct (G n v' (le_n n) E) as (_ & D & _). apply D; lia.
Qed.
