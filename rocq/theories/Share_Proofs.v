(** Structured vectors and dictionaries. *)
From Coq Require Import Reals String List Bool Arith Lia Permutation.
From Verif Require Import Vehicle_Model Share_Model Share_Spec.
Import ListNotations.
Local Open Scope list_scope.
Local Open Scope nat_scope.
Local Notation length := List.length.

Lemma path_eqb_true : forall a b, path_eqb a b = true <-> a = b.
Proof. intros a b. unfold path_eqb. destruct (list_eq_dec string_dec a b); split; congruence. Qed.
Lemma path_eqb_refl : forall a, path_eqb a a = true.
Proof. intros a. apply path_eqb_true. reflexivity. Qed.
Lemma path_eqb_false : forall a b, a <> b -> path_eqb a b = false.
Proof. intros a b H. destruct (path_eqb a b) eqn:E; [|reflexivity]. apply path_eqb_true in E. congruence. Qed.

Lemma size_app : forall q1 q2, size (q1 ++ q2) = size q1 + size q2.
Proof. induction q1 as [|e q1 IH]; intros q2; cbn; [reflexivity|]. unfold size in *. rewrite IH. lia. Qed.
Lemma place_at : forall q1 k ind q2, ~ In k (map fst q1) -> place (q1 ++ (k, ind) :: q2) k = Some (size q1, length ind).
Proof.
  induction q1 as [|[p i] q1 IH]; intros k ind q2 N; cbn [app place].
  - rewrite path_eqb_refl. reflexivity.
  - rewrite path_eqb_false by (intros ->; apply N; left; reflexivity). rewrite IH; [reflexivity|]. intros I. apply N. right. exact I.
Qed.
Lemma matches_nil_l : forall d, matches [] d -> d = [].
Proof. intros d (H & _). destruct d; [reflexivity|discriminate]. Qed.
Lemma matches_cons : forall k ind q d, matches ((k, ind) :: q) d -> exists w d', d = (k, w) :: d' /\ length w = length ind /\ matches q d'.
Proof.
  intros k ind q d (H1 & H2). destruct d as [|[p w] d]; [discriminate|]. cbn in H1, H2. injection H1 as -> H1. injection H2 as L H2.
  exists w, d. repeat split; auto.
Qed.
Lemma matches_keys : forall q d, matches q d -> map fst d = map fst q.
Proof. intros q d (H & _). exact H. Qed.
Lemma matches_size : forall q d, matches q d -> length (laid_out d) = size q.
Proof.
  induction q as [|[k ind] q IH]; intros d M.
  - rewrite (matches_nil_l d M). reflexivity.
  - destruct (matches_cons k ind q d M) as (w & d' & -> & L & M'). unfold laid_out. cbn [flat_map snd size fold_right].
    rewrite app_length, L. f_equal. exact (IH d' M').
Qed.
Lemma laid_app : forall d1 d2, laid_out (d1 ++ d2) = laid_out d1 ++ laid_out d2.
Proof. intros. unfold laid_out. apply flat_map_app. Qed.
Lemma skipn_len : forall {A} (a b : list A) n, n = length a -> skipn n (a ++ b) = b.
Proof. intros A a b n ->. rewrite skipn_app, skipn_all, Nat.sub_diag. reflexivity. Qed.
Lemma firstn_len : forall {A} (a b : list A) n, n = length a -> firstn n (a ++ b) = a.
Proof. intros A a b n ->. rewrite firstn_app, firstn_all, Nat.sub_diag. cbn. apply app_nil_r. Qed.
Lemma sget_at : forall q1 k ind q2 d1 w rest, ~ In k (map fst q1) -> matches q1 d1 -> length w = length ind ->
  sget (q1 ++ (k, ind) :: q2) (laid_out d1 ++ w ++ rest) k = Some w.
Proof.
  intros q1 k ind q2 d1 w rest N M L. unfold sget. rewrite place_at by exact N.
  rewrite skipn_len by (symmetry; apply matches_size; exact M). rewrite firstn_len by lia. reflexivity.
Qed.
Lemma sset_at : forall q1 k ind q2 d1 w w0 rest, ~ In k (map fst q1) -> matches q1 d1 -> length w = length ind -> length w0 = length ind ->
  sset (q1 ++ (k, ind) :: q2) (laid_out d1 ++ w0 ++ rest) k w = Some (laid_out d1 ++ w ++ rest).
Proof.
  intros q1 k ind q2 d1 w w0 rest N M L L0. unfold sset. rewrite place_at by exact N. rewrite (proj2 (Nat.eqb_eq _ _) L).
  rewrite firstn_len by (symmetry; apply matches_size; exact M).
  replace (laid_out d1 ++ w0 ++ rest) with ((laid_out d1 ++ w0) ++ rest) by (rewrite <- app_assoc; reflexivity).
  rewrite (skipn_len (laid_out d1 ++ w0)) by (rewrite app_length, (matches_size q1 d1 M); lia). reflexivity.
Qed.
Lemma put_new : forall d k w, ~ In k (map fst d) -> put d k w = d ++ [(k, w)].
Proof.
  induction d as [|[p u] d IH]; intros k w N; [reflexivity|]. cbn [put app]. rewrite path_eqb_false by (intros ->; apply N; left; reflexivity).
  rewrite IH; [reflexivity|]. intros I. apply N. right. exact I.
Qed.
Lemma put_at : forall d1 k v d2 w, ~ In k (map fst d1) -> put (d1 ++ (k, v) :: d2) k w = d1 ++ (k, w) :: d2.
Proof.
  induction d1 as [|[p u] d1 IH]; intros k v d2 w N; cbn [app put].
  - rewrite path_eqb_refl. reflexivity.
  - rewrite path_eqb_false by (intros ->; apply N; left; reflexivity). rewrite IH; [reflexivity|]. intros I. apply N. right. exact I.
Qed.
Lemma find_at : forall d1 k v d2, ~ In k (map fst d1) -> find (d1 ++ (k, v) :: d2) k = Some v.
Proof.
  induction d1 as [|[p u] d1 IH]; intros k v d2 N; cbn [app find].
  - rewrite path_eqb_refl. reflexivity.
  - rewrite path_eqb_false by (intros ->; apply N; left; reflexivity). apply IH. intros I. apply N. right. exact I.
Qed.
Lemma nodup_mid : forall (q1 : shared) k ind q2, NoDup (map fst (q1 ++ (k, ind) :: q2)) -> ~ In k (map fst q1).
Proof.
  intros q1 k ind q2 N I. rewrite map_app in N. cbn [map fst] in N. apply NoDup_remove_2 in N. apply N. apply in_or_app. left. exact I.
Qed.
Lemma matches_app : forall q1 q2 d1 d2, matches q1 d1 -> matches q2 d2 -> matches (q1 ++ q2) (d1 ++ d2).
Proof. intros q1 q2 d1 d2 (A & B) (C & D). split; rewrite !map_app; congruence. Qed.

Theorem struct_to_dict : forall q d, NoDup (map fst q) -> q <> [] -> matches q d -> struct2dict q (laid_out d) = Some d.
Proof.
  intros q d N NE M. unfold struct2dict. destruct q as [|e0 q0] eqn:Q; [congruence|]. rewrite <- Q in *. clear Q NE e0 q0.
  assert (G : forall q2 q1 d1 d2, q = q1 ++ q2 -> d = d1 ++ d2 -> matches q1 d1 -> matches q2 d2 ->
    fold_left (fun d0 e => match d0, sget q (laid_out d) (fst e) with Some d0, Some w => Some (put d0 (fst e) w) | _, _ => None end) q2 (Some d1) = Some d).
  { induction q2 as [|[k ind] q2 IH]; intros q1 d1 d2 Q D M1 M2.
    - cbn. pose proof (matches_nil_l d2 M2) as Z. rewrite D, Z, app_nil_r. reflexivity.
    - destruct (matches_cons k ind q2 d2 M2) as (w & d2' & -> & L & M2'). cbn [fold_left fst].
      assert (NK : ~ In k (map fst q1)) by (apply (nodup_mid q1 k ind q2); rewrite <- Q; exact N).
      replace (sget q (laid_out d) k) with (Some w).
      2:{ rewrite Q, D, laid_app. unfold laid_out at 2. cbn [flat_map snd]. symmetry. apply sget_at; auto. }
      rewrite put_new by (rewrite (matches_keys q1 d1 M1); exact NK).
      apply (IH (q1 ++ [(k, ind)]) (d1 ++ [(k, w)]) d2').
      + rewrite <- app_assoc. exact Q.
      + rewrite <- app_assoc. exact D.
      + apply matches_app; [exact M1|]. split; cbn; congruence.
      + exact M2'. }
  apply (G q [] [] d); auto. split; reflexivity.
Qed.
Theorem dict_to_struct : forall q d, NoDup (map fst q) -> matches q d -> levelled d -> dict2struct q d = Some (laid_out d).
Proof.
  intros q d N M (p & w & r & l & D & HP & LV). unfold dict2struct. rewrite D at 1.
  assert (LP : (length p =? (if marked d then 3 else 2)) = true).
  { apply Nat.eqb_eq. rewrite D. unfold marked. destruct p as [|l0 p]; [discriminate|]. injection HP as ->.
    destruct LV as [(E & [H|H])|(E & H1 & H2)]; rewrite ?H, ?H1, ?H2, ?Bool.orb_true_r; cbn; exact E. }
  rewrite LP. clear D HP LP LV p w r l.
  assert (G : forall q2 q1 d1 d2, q = q1 ++ q2 -> matches q1 d1 -> matches q2 d2 ->
    fold_left (fun v e => match v with None => None | Some v => sset q v (fst e) (snd e) end) d2 (Some (laid_out d1 ++ repeat 0%R (size q2)))
    = Some (laid_out (d1 ++ d2))).
  { induction q2 as [|[k ind] q2 IH]; intros q1 d1 d2 Q M1 M2.
    - rewrite (matches_nil_l d2 M2). cbn. rewrite !app_nil_r. reflexivity.
    - destruct (matches_cons k ind q2 d2 M2) as (w & d2' & -> & L & M2'). cbn [fold_left fst snd].
      assert (NK : ~ In k (map fst q1)) by (apply (nodup_mid q1 k ind q2); rewrite <- Q; exact N).
      change (size ((k, ind) :: q2)) with (length ind + size q2). rewrite repeat_app.
      rewrite Q at 1. rewrite sset_at; auto; [|apply repeat_length].
      rewrite app_assoc. replace (laid_out d1 ++ w) with (laid_out (d1 ++ [(k, w)])) by (rewrite laid_app; unfold laid_out; cbn; rewrite app_nil_r; reflexivity).
      rewrite (IH (q1 ++ [(k, ind)]) (d1 ++ [(k, w)]) d2').
      + rewrite <- app_assoc. reflexivity.
      + rewrite <- app_assoc. exact Q.
      + apply matches_app; [exact M1|]. split; cbn; congruence.
      + exact M2'. }
  specialize (G q [] [] d eq_refl (conj eq_refl eq_refl) M). exact G.
Qed.
(** every vector of the right size is the layout of exactly one dictionary *)
Theorem layout_exists : forall q v, length v = size q -> exists d, matches q d /\ laid_out d = v.
Proof.
  induction q as [|[k ind] q IH]; intros v L.
  - exists []. split; [split; reflexivity|]. destruct v; [reflexivity|discriminate].
  - change (size ((k, ind) :: q)) with (length ind + size q) in L.
    destruct (IH (skipn (length ind) v)) as (d & (M1 & M2) & E); [rewrite skipn_length; lia|].
    exists ((k, firstn (length ind) v) :: d). split.
    + split; cbn; [congruence|]. rewrite firstn_length, Nat.min_l by lia. congruence.
    + unfold laid_out in *. cbn. rewrite E. apply firstn_skipn.
Qed.
Theorem there_and_back : forall q v d, NoDup (map fst q) -> length v = size q -> struct2dict q v = Some d -> levelled d ->
  dict2struct q d = Some v /\ matches q d.
Proof.
  intros q v d N L E LV. destruct (layout_exists q v L) as (d' & M & <-).
  assert (q <> []) by (intros ->; discriminate). rewrite (struct_to_dict q d' N H M) in E. injection E as <-.
  split; [apply dict_to_struct; auto|exact M].
Qed.
Theorem back_and_there : forall q d v, NoDup (map fst q) -> matches q d -> dict2struct q d = Some v -> struct2dict q v = Some d.
Proof.
  intros q d v N M E. assert (NE : q <> []). { intros ->. rewrite (matches_nil_l d M) in E. discriminate. }
  assert (LV : levelled d).
  { unfold dict2struct in E. destruct d as [|[p w] r]; [discriminate|]. destruct (length p =? _) eqn:LP; [|discriminate]. apply Nat.eqb_eq in LP.
    destruct p as [|l p]; [destruct (marked _); discriminate|]. exists (l :: p), w, r, l. repeat split.
    unfold marked in LP. destruct (has "dd" l), (has "admm" l); cbn [orb] in LP; tauto. }
  rewrite (dict_to_struct q d N M LV) in E. injection E as <-. apply struct_to_dict; auto.
Qed.
Theorem empty_raises : forall v, struct2dict [] v = None /\ dict2struct [] [] = None.
Proof. split; reflexivity. Qed.
(** a child whose label contains dd *)
Theorem odd_label : exists q v d, NoDup (map fst q) /\ length v = size q /\ q <> [] /\ (forall p, In p (map fst q) -> length p = 2) /\
  struct2dict q v = Some d /\ dict2struct q d = None.
Proof.
  exists [(["sledding0"; "splines_seg0"]%string, [0; 1])], [1%R; 2%R], [(["sledding0"; "splines_seg0"]%string, [1%R; 2%R])].
  repeat split; try reflexivity; try discriminate.
  - constructor; [intros []|constructor].
  - intros p [<-|[]]. reflexivity.
Qed.
(** ** entries of a variable *)
Lemma flat_map_length : forall {A} (f : nat -> list A) c n a, (forall j, length (f j) = c) -> length (flat_map f (seq a n)) = n * c.
Proof. intros A f c n. induction n as [|n IH]; intros a H; cbn; [reflexivity|]. rewrite app_length, H, IH by exact H. reflexivity. Qed.
Lemma flat_map_nth : forall {A} (f : nat -> list A) c n a i j x, (forall j, length (f j) = c) -> i < c -> j < n ->
  nth (j * c + i) (flat_map f (seq a n)) x = nth i (f (a + j)) x.
Proof.
  intros A f c n. induction n as [|n IH]; intros a i j x H Hi Hj; [lia|]. cbn [seq flat_map]. destruct j as [|j].
  - rewrite app_nth1 by (rewrite H; lia). rewrite Nat.add_0_r. reflexivity.
  - rewrite app_nth2 by (rewrite H; nia). rewrite H. replace (S j * c + i - c) with (j * c + i) by nia.
    rewrite IH by (auto; lia). f_equal. f_equal. lia.
Qed.
Theorem picked_entry : forall cols m ind i x, i < length ind -> nth i ind 0 < cols * length m ->
  nth i (picked cols m ind) x = nth (nth i ind 0 / length m) (nth (nth i ind 0 mod length m) m []) 0%R.
Proof.
  intros cols m ind i x Hi Hx. unfold picked. rewrite (nth_indep _ x (nth 0 (ravel cols m) 0%R)) by (rewrite map_length; exact Hi).
  rewrite (map_nth (fun i => nth i (ravel cols m) 0%R) ind 0). set (k := nth i ind 0) in *.
  assert (length m <> 0) by nia. rewrite (Nat.div_mod k (length m)) at 1 by assumption.
  replace (length m * (k / length m)) with ((k / length m) * length m) by lia. unfold ravel.
  pose proof (Nat.mod_upper_bound k (length m) ltac:(assumption)).
  assert (k / length m < cols) by (apply Nat.div_lt_upper_bound; [assumption|lia]).
  rewrite (flat_map_nth (fun j => map (fun row => nth j row 0%R) m) (length m)); auto; [|intros j; apply map_length].
  cbn [Nat.add]. rewrite (nth_indep (map (fun row => nth (k / length m) row 0%R) m) 0%R (nth (k / length m) [] 0%R)) by (rewrite map_length; assumption).
  rewrite (map_nth (fun row => nth (k / length m) row 0%R) m []). reflexivity.
Qed.
Theorem picked_spline : forall cols m j, j < cols -> block (length m) j (picked cols m (seq 0 (cols * length m))) = map (fun row => nth j row 0%R) m.
Proof.
  intros cols m j Hj. apply (nth_ext _ _ 0%R 0%R).
  - unfold block. rewrite firstn_length, skipn_length. unfold picked. rewrite map_length, seq_length, map_length. nia.
  - intros i Hi. unfold block in *. rewrite firstn_length, skipn_length in Hi. unfold picked in Hi. rewrite map_length, seq_length in Hi.
    assert (i < length m) by lia. rewrite <- (firstn_skipn (length m) (skipn _ _)) in *.
    assert (E : forall (l : list R) n i, i < n -> nth i (firstn n l) 0%R = nth i l 0%R).
    { clear. induction l as [|a l IH]; intros n i H; [rewrite firstn_nil; reflexivity|]. destruct n; [lia|]. destruct i; [reflexivity|]. cbn. apply IH. lia. }
    rewrite firstn_skipn. rewrite E by lia.
    assert (E2 : forall (l : list R) n i, nth i (skipn n l) 0%R = nth (n + i) l 0%R).
    { clear. induction l as [|a l IH]; intros n i; destruct n; cbn [skipn Nat.add nth]; auto. destruct i; reflexivity. }
    rewrite E2. rewrite (picked_entry cols m _ _ 0%R); rewrite ?seq_length, ?seq_nth; try nia. cbn [Nat.add].
    rewrite Nat.div_add_l by lia. rewrite (Nat.div_small i) by assumption. rewrite Nat.add_0_r.
    rewrite (Nat.add_comm (j * length m)), Nat.mod_add by lia. rewrite Nat.mod_small by assumption.
    rewrite (nth_indep (map (fun row => nth j row 0%R) m) 0%R (nth j [] 0%R)) by (rewrite map_length; assumption).
    rewrite (map_nth (fun row => nth j row 0%R)). reflexivity.
Qed.
