From Coq Require Import ZArith QArith Qabs Qround List Bool Lia Lqa Permutation.
Import ListNotations.
From Verif Require Import Grid_Model AStar_Model AStar_Spec AStar_Proofs AStar_Proofs2.
Open Scope Z_scope.

Lemma Qltb_lt a b : Qltb a b = true <-> (a < b)%Q.
Proof.
  unfold Qltb. rewrite negb_true_iff. rewrite <- not_true_iff_false, Qle_bool_iff.
  split; [apply Qnot_le_lt|apply Qlt_not_le].
Qed.
Lemma Qltb_ge a b : Qltb a b = false <-> (b <= a)%Q.
Proof.
  unfold Qltb. rewrite negb_false_iff, Qle_bool_iff. tauto.
Qed.

(* ---------- C18: moves ---------- *)
Lemma free_q_one g x y : (ch g == 1)%Q -> free_q g x (inject_Z y - ch g) = free g (x, y - 1).
Proof.
  intros H. unfold free_q, free, in_bounds, occupied. simpl fst; simpl snd.
  assert (E : (inject_Z y - ch g == inject_Z (y - 1))%Q).
  { rewrite H. unfold Z.sub. rewrite inject_Z_plus. reflexivity. }
  f_equal.
  - f_equal. induction (occ g) as [|o l IH]; simpl; auto. rewrite IH. f_equal.
    unfold pos_eqb; simpl. rewrite (Z.eqb_sym (fst o)). f_equal.
    rewrite (Z.eqb_sym (y - 1)).
    destruct (Z.eqb_spec (snd o) (y - 1)) as [->|N].
    + apply Qeq_bool_iff. rewrite E; reflexivity.
    + apply not_true_iff_false. rewrite Qeq_bool_iff, E. intros X. apply N. apply inject_Z_injective; auto.
  - f_equal. f_equal.
    + apply eq_true_iff_eq. rewrite Qle_bool_iff, E, Z.leb_le. change 0%Q with (inject_Z 0).
      rewrite <- Zle_Qle. tauto.
    + apply eq_true_iff_eq. rewrite Qltb_lt, E, Z.ltb_lt. rewrite <- Zlt_Qlt. tauto.
Qed.

Lemma candidates_king x y q :
  In q [(x + 1, y); (x - 1, y); (x, y + 1); (x, y - 1);
        (x - 1, y + 1); (x + 1, y + 1); (x - 1, y - 1); (x + 1, y - 1)] <-> king (x, y) q.
Proof.
  destruct q as [a b]. unfold king. simpl. split.
  - intros H. repeat (destruct H as [H|H]); try contradiction; inversion H; subst;
      (split; [intros X; inversion X; lia|lia]).
  - intros [H1 [H2 H3]].
    assert (Hab : a = x -> b = y -> False) by (intros; subst; apply H1; auto).
    assert (A : a = x - 1 \/ a = x \/ a = x + 1) by lia.
    assert (B : b = y - 1 \/ b = y \/ b = y + 1) by lia.
    destruct A as [->|[->| ->]], B as [->|[->| ->]]; try tauto.
Qed.

Ltac zb := repeat match goal with
  | |- context [Z.eqb ?a ?b] => destruct (Z.eqb_spec a b); try lia
  end; cbn [negb andb].

Definition down_left (p q : pos) : Prop := fst q = fst p - 1 /\ snd q = snd p - 1.

Lemma accessible_legal g p q : king p q -> (ch g == 1)%Q \/ ~ down_left p q ->
  (is_accessible g p q = true <->
   (diagonal p q -> open_cell g (fst p, snd q) /\ open_cell g (fst q, snd p))).
Proof.
  destruct p as [x y], q as [a b]. intros [H1 [H2 H3]] Hd. unfold is_accessible, diagonal. simpl in *.
  assert (Hab : a = x -> b = y -> False) by (intros; subst; apply H1; auto).
  assert (A : a = x - 1 \/ a = x \/ a = x + 1) by lia.
  assert (B : b = y - 1 \/ b = y \/ b = y + 1) by lia.
  destruct A as [->|[->| ->]], B as [->|[->| ->]]; zb; try (split; [intros _ [? ?]; lia|auto; fail]).
  - assert (C1 : (ch g == 1)%Q).
    { destruct Hd as [Hd|Hd]; auto. exfalso; apply Hd; unfold down_left; simpl; lia. }
    rewrite (free_q_one g x y C1), andb_true_iff, !free_open.
    split; [tauto|]. intros Z; apply Z; lia.
  - rewrite andb_true_iff, !free_open. split; [tauto|]. intros Z; apply Z; lia.
  - rewrite andb_true_iff, !free_open. split; [tauto|]. intros Z; apply Z; lia.
  - rewrite andb_true_iff, !free_open. split; [tauto|]. intros Z; apply Z; lia.
Qed.

Lemma neighbors_accessible g p q :
  In q (get_neighbors g p) <-> king p q /\ open_cell g q /\ is_accessible g p q = true.
Proof.
  destruct p as [x y]. unfold get_neighbors. rewrite !filter_In, candidates_king, free_open.
  rewrite in_bounds_inside. unfold open_cell. tauto.
Qed.

Theorem neighbors_legal g p q : (ch g == 1)%Q \/ ~ down_left p q ->
  (In q (get_neighbors g p) <-> legal g p q).
Proof.
  intros Hd. rewrite neighbors_accessible. unfold legal. split.
  - intros [K [O A]]. pose proof (proj1 (accessible_legal g p q K Hd) A). auto.
  - intros [K [O D]]. split; auto. split; auto. apply (proj2 (accessible_legal g p q K Hd)); auto.
Qed.

Theorem legal_sym g p q : open_cell g p -> legal g p q -> legal g q p.
Proof.
  intros Hp [[K1 [K2 K3]] [O D]]. split; [|split; auto].
  - split; [congruence|lia].
  - intros [D1 D2]. destruct D as [A B]; [unfold diagonal in *; split; congruence|]. auto.
Qed.

(* the down-left move for any cell height *)
Theorem down_left_offered g x y :
  In (x - 1, y - 1) (get_neighbors g (x, y)) <->
  open_cell g (x - 1, y - 1) /\ open_cell g (x - 1, y) /\ 0 <= x < nx g /\
  (0 <= inject_Z y - ch g)%Q /\ (inject_Z y - ch g < inject_Z (ny g))%Q /\
  ~ (exists y', In (x, y') (occ g) /\ (inject_Z y' == inject_Z y - ch g)%Q).
Proof.
  rewrite neighbors_accessible. unfold is_accessible. zb.
  rewrite andb_true_iff, free_open. unfold free_q. rewrite !andb_true_iff, negb_true_iff.
  rewrite Z.leb_le, Z.ltb_lt, Qle_bool_iff, Qltb_lt. rewrite <- not_true_iff_false, existsb_exists.
  assert (X : (exists x0, In x0 (occ g) /\ (fst x0 =? x) && Qeq_bool (inject_Z (snd x0)) (inject_Z y - ch g) = true)
     <-> (exists y', In (x, y') (occ g) /\ (inject_Z y' == inject_Z y - ch g)%Q)).
  { split.
    - intros [[a b] [H1 H2]]. simpl in H2. apply andb_true_iff in H2. destruct H2 as [H2 H3].
      apply Z.eqb_eq in H2. apply Qeq_bool_iff in H3. subst. eauto.
    - intros [b [H1 H2]]. exists (x, b). simpl. rewrite Z.eqb_refl. split; auto.
      apply Qeq_bool_iff; auto. }
  rewrite X. assert (K : king (x, y) (x - 1, y - 1)).
  { split; [intros Z; inversion Z; lia|simpl; lia]. }
  tauto.
Qed.

(* ---------- C17: a cell that was moved into always has a neighbour ---------- *)
Lemma neighbors_orth g p q : king p q -> ~ diagonal p q -> open_cell g q -> In q (get_neighbors g p).
Proof.
  intros K D O. rewrite neighbors_accessible. split; auto. split; auto.
  destruct p as [x y], q as [a b]. unfold is_accessible, diagonal in *. simpl in *.
  zb; auto; exfalso; apply D; auto.
Qed.

Lemma entered_has_neighbor g p q : open_cell g p -> In q (get_neighbors g p) ->
  exists r, In r (get_neighbors g q).
Proof.
  intros Hp H0. rewrite neighbors_accessible in H0. destruct H0 as [K [O A]].
  destruct p as [x y], q as [a b].
  destruct (Z.eq_dec x a) as [Ex|Nx]; [|destruct (Z.eq_dec y b) as [Ey|Ny]].
  - exists (x, y). apply neighbors_orth; auto.
    + destruct K as [K1 [K2 K3]]; split; [congruence|simpl in *; lia].
    + unfold diagonal; simpl; lia.
  - exists (x, y). apply neighbors_orth; auto.
    + destruct K as [K1 [K2 K3]]; split; [congruence|simpl in *; lia].
    + unfold diagonal; simpl; lia.
  - exists (a, y). destruct K as [K1 [K2 K3]]; simpl in K2, K3, A.
    apply neighbors_orth.
    + split; [intros Z; inversion Z; lia|simpl; lia].
    + unfold diagonal; simpl; lia.
    + unfold is_accessible in A. destruct (Z.eqb_spec x a); [lia|]. destruct (Z.eqb_spec y b); [lia|].
      simpl in A.
      assert (B : a = x - 1 \/ a = x + 1) by lia. assert (C : b = y - 1 \/ b = y + 1) by lia.
      destruct B as [->| ->], C as [->| ->]; revert A; zb; intros A;
        apply andb_true_iff in A; destruct A as [A1 A2]; apply free_open; auto.
Qed.

Theorem noneighbors_start pl start : inside (pgrid pl) start -> open_cell (pgrid pl) start ->
  search pl start = Err ENoNeighbors -> forall q, ~ In q (get_neighbors (pgrid pl) start).
Proof.
  intros Hs Ho E. destruct (search_noneighbors pl start Hs E) as (p & [l W] & Hg & Hn).
  assert (X : p = start \/ exists r, open_cell (pgrid pl) r /\ In p (get_neighbors (pgrid pl) r)).
  { clear - W Ho. induction W as [a|a b c l Hab W IH]; auto. right.
    destruct IH as [->|[r Hr]]; eauto. apply neighbors_king in Hab; tauto. }
  destruct X as [->|(r & O & Hr)]; auto.
  destruct (entered_has_neighbor _ _ _ O Hr) as [z Hz]. exfalso; apply (Hn z Hz).
Qed.

(* ---------- C19: snapping ---------- *)
Lemma py_round_near q : (Qabs (q - inject_Z (py_round q)) <= 1 # 2)%Q.
Proof.
  unfold py_round. set (f := Qfloor q).
  pose proof (Qfloor_le q) as H1. pose proof (Qlt_floor q) as H2. fold f in H1, H2.
  rewrite inject_Z_plus in H2. change (inject_Z 1) with 1%Q in H2.
  apply Qabs_Qle_condition.
  destruct (Qltb (q - inject_Z f) (1 # 2)) eqn:E1; [apply Qltb_lt in E1; lra|apply Qltb_ge in E1].
  destruct (Qltb (1 # 2) (q - inject_Z f)) eqn:E2; [apply Qltb_lt in E2|apply Qltb_ge in E2].
  - rewrite inject_Z_plus; change (inject_Z 1) with 1%Q; lra.
  - destruct (Z.even f); [lra|]. rewrite inject_Z_plus; change (inject_Z 1) with 1%Q; lra.
Qed.

Lemma round_bounds q : (inject_Z (py_round q) - (1#2) <= q <= inject_Z (py_round q) + (1#2))%Q.
Proof.
  pose proof (py_round_near q) as H. apply Qabs_Qle_condition in H. split; lra.
Qed.

Lemma Zle_Q a b : a <= b -> (inject_Z a <= inject_Z b)%Q.
Proof. rewrite <- Zle_Qle; auto. Qed.

Lemma clamp_nearest t n r j : (inject_Z r - (1#2) <= t <= inject_Z r + (1#2))%Q ->
  0 <= j < n -> let i := Z.min (Z.max 0 r) (n - 1) in
  (Qabs (t - inject_Z i) <= Qabs (t - inject_Z j))%Q.
Proof.
  intros [H1 H2] Hj i.
  assert (C : (j = i \/ (j + 1 <= i /\ i <= r) \/ (i + 1 <= j /\ r <= i))) by lia.
  destruct C as [->|[[C1 C2]|[C1 C2]]]; [lra| |].
  - apply Zle_Q in C1. apply Zle_Q in C2. rewrite inject_Z_plus in C1. change (inject_Z 1) with 1%Q in C1.
    rewrite (Qabs_pos (t - inject_Z j)) by lra. apply Qabs_Qle_condition. split; lra.
  - apply Zle_Q in C1. apply Zle_Q in C2. rewrite inject_Z_plus in C1. change (inject_Z 1) with 1%Q in C1.
    rewrite (Qabs_neg (t - inject_Z j)) by lra. apply Qabs_Qle_condition. split; lra.
Qed.

Lemma snap_min g x y : 0 < nx g -> 0 < ny g ->
  snap g x y =
  (Z.min (Z.max 0 (py_round ((x - (px g - (1 # 2) * gw g + (1 # 2) * cw g)) / cw g)%Q)) (nx g - 1),
   Z.min (Z.max 0 (py_round ((y - (py g - (1 # 2) * gh g + (1 # 2) * ch g)) / ch g)%Q)) (ny g - 1)).
Proof.
  intros Hx Hy. unfold snap, snap_index.
  set (a := py_round _). set (b := py_round ((y - _) / _)%Q).
  destruct (in_bounds g _) eqn:E; auto. apply in_bounds_inside in E. destruct E as [E1 E2]; simpl in *.
  f_equal; lia.
Qed.

Lemma snap_inside g x y : 0 < nx g -> 0 < ny g -> inside g (snap g x y).
Proof. intros. rewrite snap_min by auto. unfold inside; simpl. lia. Qed.

Lemma cw_pos g : wf_grid g -> (0 < cw g)%Q.
Proof.
  intros (A & B & C & D). unfold cw. apply Qlt_shift_div_l.
  - change 0%Q with (inject_Z 0). rewrite <- Zlt_Qlt; auto.
  - lra.
Qed.
Lemma ch_pos g : wf_grid g -> (0 < ch g)%Q.
Proof.
  intros (A & B & C & D). unfold ch. apply Qlt_shift_div_l.
  - change 0%Q with (inject_Z 0). rewrite <- Zlt_Qlt; auto.
  - lra.
Qed.

Lemma Qabs_scale c a b : (0 <= c)%Q -> (Qabs a <= Qabs b)%Q -> (Qabs (c * a) <= Qabs (c * b))%Q.
Proof.
  intros Hc H. rewrite !Qabs_Qmult, (Qabs_pos c) by auto. nra.
Qed.

Theorem snap_nearest g x y i j : wf_grid g -> 0 <= i < nx g -> 0 <= j < ny g ->
  (Qabs (x - centre_x g (fst (snap g x y))) <= Qabs (x - centre_x g i))%Q /\
  (Qabs (y - centre_y g (snd (snap g x y))) <= Qabs (y - centre_y g j))%Q.
Proof.
  intros W Hi Hj. pose proof (cw_pos g W). pose proof (ch_pos g W).
  rewrite snap_min by (destruct W; tauto). simpl fst; simpl snd.
  set (tx := ((x - (px g - (1 # 2) * gw g + (1 # 2) * cw g)) / cw g)%Q).
  set (ty := ((y - (py g - (1 # 2) * gh g + (1 # 2) * ch g)) / ch g)%Q).
  pose proof (clamp_nearest tx (nx g) _ i (round_bounds tx) Hi) as Cx.
  pose proof (clamp_nearest ty (ny g) _ j (round_bounds ty) Hj) as Cy. cbv zeta in Cx, Cy.
  assert (Ex : forall k, (x - centre_x g k == cw g * (tx - inject_Z k))%Q).
  { intros k. unfold tx, centre_x. field. lra. }
  assert (Ey : forall k, (y - centre_y g k == ch g * (ty - inject_Z k))%Q).
  { intros k. unfold ty, centre_y. field. lra. }
  rewrite !Ex, !Ey. split; apply Qabs_scale; auto; lra.
Qed.

Lemma snap_candidates_king p q : In q (snap_candidates p) <-> king p q.
Proof.
  destruct p as [x y]. rewrite <- candidates_king. unfold snap_candidates. simpl. tauto.
Qed.

Lemma select_in g l : forall s, In (snd (fold_left (snap_select g) l s)) (snd s :: l).
Proof.
  induction l as [|a l IH]; intros s; simpl; auto.
  destruct (IH (snap_select g s a)) as [H|H]; auto.
  unfold snap_select in H at 1. unfold snap_select at 1.
  destruct (Qltb _ _); simpl in *; auto.
Qed.

Lemma select_first g l a d0 m : (dist2_cells g a m < d0)%Q ->
  In (snd (fold_left (snap_select g) (a :: l) (d0, m))) (a :: l).
Proof.
  intros H. cbn [fold_left]. unfold snap_select at 2. simpl fst; simpl snd.
  apply Qltb_lt in H. rewrite H. apply (select_in g l (_, a)).
Qed.

Lemma dist2_bound g a m : wf_grid g ->
  (dist2_cells g a m < 2 * Qmax2 (ch g) (cw g) * (2 * Qmax2 (ch g) (cw g)))%Q.
Proof.
  intros W. pose proof (cw_pos g W). pose proof (ch_pos g W).
  unfold Qmax2. destruct (Qltb (ch g) (cw g)) eqn:E;
    [apply Qltb_lt in E|apply Qltb_ge in E];
    unfold dist2_cells; destruct (pos_eqb a m), (fst a =? fst m), (snd a =? snd m); nra.
Qed.

Theorem move_inside g x y : wf_grid g -> inside g (move_to_gridpoint g x y).
Proof.
  intros W. unfold move_to_gridpoint.
  pose proof (snap_inside g x y ltac:(destruct W; tauto) ltac:(destruct W; tauto)) as S.
  destruct (occupied g (snap g x y)); auto.
  set (c := filter _ _). set (d := (_ * _)%Q).
  destruct (in_inv (select_in g c (d, snap g x y))) as [<-|H]; auto.
  unfold c in H. rewrite !filter_In in H. apply in_bounds_inside; tauto.
Qed.

Theorem move_free g x y : wf_grid g ->
  (exists q, (q = snap g x y \/ king (snap g x y) q) /\ open_cell g q) ->
  open_cell g (move_to_gridpoint g x y).
Proof.
  intros W (q & Hq & O). unfold move_to_gridpoint.
  pose proof (snap_inside g x y ltac:(destruct W; tauto) ltac:(destruct W; tauto)) as S.
  destruct (occupied g (snap g x y)) eqn:E.
  - assert (In q (filter (free g) (filter (in_bounds g) (snap_candidates (snap g x y))))).
    { rewrite !filter_In, snap_candidates_king, free_open, in_bounds_inside.
      destruct Hq as [->|K]; [apply occupied_In in E; destruct O; tauto|].
      destruct O; unfold open_cell; tauto. }
    destruct (filter _ _) as [|a l] eqn:Ef; [contradiction|].
    assert (Hin := select_first g l a _ (snap g x y) (dist2_bound g a (snap g x y) W)).
    set (r := snd _) in Hin. change (open_cell g r).
    rewrite <- Ef in Hin. rewrite !filter_In, free_open in Hin. tauto.
  - split; auto. intros X. apply occupied_In in X. congruence.
Qed.

Theorem move_stays g x y : ~ In (snap g x y) (occ g) -> move_to_gridpoint g x y = snap g x y.
Proof.
  intros H. unfold move_to_gridpoint. destruct (occupied g (snap g x y)) eqn:E; auto.
  apply occupied_In in E; tauto.
Qed.

(* if the returned cell is blocked, it is the nearest cell and it is walled in *)
Theorem move_blocked g x y : wf_grid g -> In (move_to_gridpoint g x y) (occ g) ->
  move_to_gridpoint g x y = snap g x y /\ forall q, ~ In q (get_neighbors g (snap g x y)).
Proof.
  intros W H.
  assert (N : forall q, (q = snap g x y \/ king (snap g x y) q) -> ~ open_cell g q).
  { intros q Hq O. destruct (move_free g x y W) as [_ X]; eauto. }
  split.
  - unfold move_to_gridpoint in *. destruct (occupied g (snap g x y)) eqn:E; auto.
    set (c := filter _ _) in *. set (d := (_ * _)%Q) in *.
    destruct (in_inv (select_in g c (d, snap g x y))) as [<-|K]; auto. exfalso.
    unfold c in K at 2. rewrite !filter_In, free_open in K. unfold open_cell in K. tauto.
  - intros q Hq. apply neighbors_king in Hq. destruct Hq as [K O]. apply (N q); auto.
Qed.

(* ---------- C20: the heuristic ---------- *)
Lemma Zabs_Q z : (inject_Z (Z.abs z) == Qabs (inject_Z z))%Q.
Proof. unfold Qabs, inject_Z. reflexivity. Qed.

Lemma h_step_x c a b k : (0 <= c)%Q -> -1 <= b - a <= 1 ->
  (inject_Z (Z.abs (k - a)) * c <= inject_Z (Z.abs (k - b)) * c + c)%Q.
Proof.
  intros Hc H. assert (X : Z.abs (k - a) <= Z.abs (k - b) + 1) by lia.
  apply Zle_Q in X. rewrite inject_Z_plus in X. change (inject_Z 1) with 1%Q in X. nra.
Qed.

(* the Manhattan estimate drops by at most eps times the length of a move *)
Theorem manhattan_step pl p q eps : wf_grid (pgrid pl) -> (1 <= eps)%Q -> king p q ->
  (diagonal p q -> (cw (pgrid pl) + ch (pgrid pl) <= eps * pdiag pl)%Q) ->
  (h_cost pl p <= eps * move_len (pgrid pl) (pdiag pl) p q + h_cost pl q)%Q.
Proof.
  intros W He [K1 [K2 K3]] Hd. pose proof (cw_pos _ W) as Hw. pose proof (ch_pos _ W) as Hh.
  unfold h_cost, move_len.
  pose proof (h_step_x (cw (pgrid pl)) (fst p) (fst q) (fst (pgoal pl)) ltac:(lra) K2) as Sx.
  pose proof (h_step_x (ch (pgrid pl)) (snd p) (snd q) (snd (pgoal pl)) ltac:(lra) K3) as Sy.
  set (hx := (inject_Z (Z.abs (fst (pgoal pl) - fst p)) * cw (pgrid pl))%Q) in *.
  set (hy := (inject_Z (Z.abs (snd (pgoal pl) - snd p)) * ch (pgrid pl))%Q) in *.
  set (hx' := (inject_Z (Z.abs (fst (pgoal pl) - fst q)) * cw (pgrid pl))%Q) in *.
  set (hy' := (inject_Z (Z.abs (snd (pgoal pl) - snd q)) * ch (pgrid pl))%Q) in *.
  destruct (Z.eqb_spec (snd p) (snd q)) as [E|N].
  - assert (hy == hy')%Q by (unfold hy, hy'; rewrite E; reflexivity). nra.
  - destruct (Z.eqb_spec (fst p) (fst q)) as [E|N'].
    + assert (hx == hx')%Q by (unfold hx, hx'; rewrite E; reflexivity). nra.
    + specialize (Hd (conj N' N)). lra.
Qed.

Theorem manhattan_admissible pl l p : wf_grid (pgrid pl) ->
  walk (fun a b => king a b /\ ~ diagonal a b) p (pgoal pl) l ->
  (h_cost pl p <= walk_len (move_len (pgrid pl) (pdiag pl)) l)%Q.
Proof.
  intros W Wk. remember (pgoal pl) as e. induction Wk as [a|a b c l [K D] Wk IH].
  - subst a. unfold h_cost. rewrite !Z.sub_diag. change (inject_Z (Z.abs 0)) with 0%Q. cbn [walk_len]. lra.
  - rewrite (walk_len_cons _ _ a b c l Wk).
    pose proof (manhattan_step pl a b 1 W ltac:(lra) K ltac:(tauto)). specialize (IH Heqe). lra.
Qed.

Theorem search_quality_grid pl start path eps : wf_grid (pgrid pl) -> inside (pgrid pl) start ->
  (1 <= eps)%Q -> (0 <= pdiag pl)%Q ->
  ((cw (pgrid pl) + ch (pgrid pl) <= eps * pdiag pl)%Q \/
   forall p q, In q (get_neighbors (pgrid pl) p) -> ~ diagonal p q) ->
  search pl start = Ok path ->
  forall l, walk (fun p q => In q (get_neighbors (pgrid pl) p)) start (pgoal pl) l ->
  (walk_len (move_len (pgrid pl) (pdiag pl)) path <=
   eps * walk_len (move_len (pgrid pl) (pdiag pl)) l)%Q.
Proof.
  intros W Hs He Hdn Hd. apply search_quality; auto.
  - intros p q _. pose proof (cw_pos _ W). pose proof (ch_pos _ W). unfold move_len.
    destruct (snd p =? snd q), (fst p =? fst q); lra.
  - intros p q Hq. pose proof (neighbors_king _ _ _ Hq) as [K _].
    apply manhattan_step; auto. intros D. destruct Hd as [Hd|Hd]; auto. exfalso; eapply Hd; eauto.
Qed.
