(** Proofs: coupling at zero residual, optimality of stationary states. *)

From Coq Require Import List Arith Reals Lia Lra Permutation Bool.
From Verif Require Import Admm_Model Admm_Spec Admm_Proofs Admm_Proofs2.
Import ListNotations.
Open Scope R_scope.

(** ** Stacked vectors *)

Lemma concat_map_len : forall (f g : nat -> vec) l, (forall n, In n l -> length (f n) = length (g n)) ->
  length (concat (map f l)) = length (concat (map g l)).
Proof.
  intros f g l. induction l as [|n l IH]; intros H; simpl; trivial.
  rewrite !app_length. rewrite (H n) by (simpl; auto). f_equal. apply IH. intros m Hm. apply H. simpl; auto.
Qed.

Lemma map2_app : forall f a b c d, length a = length b ->
  map2 f (a ++ c) (b ++ d) = map2 f a b ++ map2 f c d.
Proof.
  intros f a. induction a as [|x a IH]; intros [|y b] c d H; simpl in *; try lia; trivial.
  now rewrite IH by lia.
Qed.

Lemma vscale_app : forall c a b, vscale c (a ++ b) = vscale c a ++ vscale c b.
Proof. intros. apply map_app. Qed.

Lemma upd_l_app : forall rho l l' x x' z z', length l = length x -> length x = length z ->
  upd_l rho (l ++ l') (x ++ x') (z ++ z') = upd_l rho l x z ++ upd_l rho l' x' z'.
Proof.
  intros. unfold upd_l, vsub, vadd. rewrite map2_app by trivial. rewrite vscale_app.
  rewrite map2_app; trivial. rewrite vscale_length, map2_length; congruence.
Qed.

Lemma upd_l_concat : forall rho (l x z : nat -> vec) ns,
  (forall n, In n ns -> length (l n) = length (x n) /\ length (x n) = length (z n)) ->
  upd_l rho (concat (map l ns)) (concat (map x ns)) (concat (map z ns)) =
  concat (map (fun n => upd_l rho (l n) (x n) (z n)) ns).
Proof.
  intros rho l x z ns. induction ns as [|n ns IH]; intros H; simpl; [reflexivity|].
  destruct (H n ltac:(simpl; auto)) as [H1 H2]. rewrite upd_l_app by trivial. rewrite IH; trivial.
  intros m Hm. apply H. simpl; auto.
Qed.

Lemma dot_app : forall a b c d, length a = length b -> dot (a ++ c) (b ++ d) = dot a b + dot c d.
Proof.
  induction a as [|x a IH]; intros [|y b] c d H; simpl in *; try lia; [ring|].
  rewrite IH by lia. ring.
Qed.

Lemma dot_concat : forall (f g : nat -> vec) ns, (forall n, In n ns -> length (f n) = length (g n)) ->
  dot (concat (map f ns)) (concat (map g ns)) = fold_right Rplus 0 (map (fun n => dot (f n) (g n)) ns).
Proof.
  intros f g ns. induction ns as [|n ns IH]; intros H; simpl; trivial.
  rewrite dot_app by (apply H; simpl; auto). rewrite IH; trivial. intros m Hm. apply H. simpl; auto.
Qed.

Lemma vsub_app : forall a b c d, length a = length b -> vsub (a ++ c) (b ++ d) = vsub a b ++ vsub c d.
Proof. intros. now apply map2_app. Qed.

Lemma vsub_concat : forall (f g : nat -> vec) ns, (forall n, In n ns -> length (f n) = length (g n)) ->
  vsub (concat (map f ns)) (concat (map g ns)) = concat (map (fun n => vsub (f n) (g n)) ns).
Proof.
  intros f g ns. induction ns as [|n ns IH]; intros H; simpl; trivial.
  rewrite vsub_app by (apply H; simpl; auto). rewrite IH; trivial. intros m Hm. apply H. simpl; auto.
Qed.

(** ** What one dual update without acceleration does *)

Section OneUpdate.
  Context (N : nat) (nb : nat -> list nat) (rho : R) (shifts : nat -> bool) (tf : nat -> vec -> vec)
    (solver : nat -> updater -> vec) (zsolver : nat -> updater -> vec * (nat -> vec)) (s : system).

  Let s3 := first_half N nb shifts tf solver s.
  Let s5 := dual_update N nb rho shifts tf solver zsolver None s.

  Lemma update_fields : forall u, (u < N)%nat ->
    x_i (s5 u) = x_i (s3 u) /\
    z_i (s5 u) = fst (zsolver u (s3 u)) /\
    z_ij (s5 u) = snd (zsolver u (s3 u)) /\
    l_i (s5 u) = upd_l rho (l_i (s3 u)) (x_i (s3 u)) (fst (zsolver u (s3 u))) /\
    l_ij (s5 u) = (fun n => upd_l rho (l_ij (s3 u) n) (x_j (s3 u) n) (snd (zsolver u (s3 u)) n)).
  Proof.
    intros u Hu. unfold s5, dual_update. fold s3.
    pose (g := fun u d => let '(z, zj) := zsolver u d in
        mkUpd (x_i d) z (z_i d) (upd_l rho (l_i d) (x_i d) z) (l_i d)
                 (x_j d) zj (z_ij d) (fun n => upd_l rho (l_ij d n) (x_j d n) (zj n)) (l_ij d)
                 (z_ji d) (l_ji d)).
    assert (L : for_all N (update_zl rho zsolver) s3 u = g u (s3 u)).
    { rewrite (for_all_local (update_zl rho zsolver) g).
      - now rewrite (proj2 (Nat.ltb_lt u N)).
      - intros t w v. unfold update_zl, g. destruct (zsolver w (t w)). apply set_as_if. }
    destruct (communicate_all_own N nb (for_all N (update_zl rho zsolver) s3) u)
      as [E1 [E2 [_ [E3 [_ [E4 [_ [E5 _]]]]]]]].
    rewrite E1, E2, E3, E4, E5, L. unfold g. now destruct (zsolver u (s3 u)).
  Qed.

  Lemma update_x_j : forall u n, (u < N)%nat -> In n (nb u) -> (n < N)%nat ->
    x_j (s5 u) n = x_i (s5 n) /\ x_i (s5 n) = x_j (s3 u) n.
  Proof.
    intros u n Hu Hn Hn'. split.
    - apply (dual_update_agree N nb rho shifts tf solver zsolver None s u n Hu Hn).
    - destruct (update_fields n Hn') as [E _]. rewrite E. unfold s3.
      destruct (first_half_fresh N nb shifts tf solver s u n Hu Hn Hn') as [A _]. rewrite A.
      unfold first_half.
      destruct (communicate_all_own N nb (for_all N (update_x solver) (for_all N (init_step shifts tf) s)) n) as [B _].
      rewrite B.
      rewrite (for_all_local (update_x solver)
        (fun u d => mkUpd (solver u d) (z_i d) (z_i_p d) (l_i d) (l_i_p d) (x_j d) (z_ij d) (z_ij_p d)
                 (l_ij d) (l_ij_p d) (z_ji d) (l_ji d))) by reflexivity.
      now rewrite (proj2 (Nat.ltb_lt n N)).
  Qed.
End OneUpdate.

Lemma zero_residual_coupling : forall N nb rho shifts tf solver zsolver s A b dim,
  let s3 := first_half N nb shifts tf solver s in
  let s' := dual_update N nb rho shifts tf solver zsolver None s in
  0 < rho ->
  (forall u, (u < N)%nat -> rows (dim u) (A u) /\ length (b u) = length (A u) /\
     length (stack nb u (x_i (s3 u)) (x_j (s3 u))) = dim u /\
     length (stack nb u (l_i (s3 u)) (l_ij (s3 u))) = dim u /\
     z_outcome rho nb (A u) (b u) (dim u) u (s3 u) (fst (zsolver u (s3 u))) (snd (zsolver u (s3 u)))) ->
  (forall u n, (u < N)%nat -> In n (nb u) -> (n < N)%nat) ->
  fits N nb s' -> p_res N nb s' = 0 ->
  forall u, (u < N)%nat -> apply_rows (A u) (gather nb (fun v => x_i (s' v)) u) = b u.
Proof.
  intros N nb rho shifts tf solver zsolver s A b dim s3 s' Hr H Hn F R u Hu.
  destruct (H u Hu) as [H1 [H2 [H3 [H4 H5]]]].
  pose proof (upd_z_feasible rho (dim u) (A u) (b u) _ _ _ H1 H2 H3 H4 H5) as E.
  rewrite mv_rows in E. rewrite <- E. f_equal. unfold gather, stack.
  destruct (proj1 (p_res_zero N nb s' F) R u Hu) as [X1 X2].
  destruct (update_fields N nb rho shifts tf solver zsolver s u Hu) as [_ [Z1 [Z2 _]]].
  fold s3 in Z1, Z2. fold s' in Z1, Z2. rewrite <- Z1, <- Z2, X1. f_equal. f_equal.
  apply map_ext_in. intros n Hin. rewrite <- (X2 n Hin). symmetry.
  apply (update_x_j N nb rho shifts tf solver zsolver s u n Hu Hin (Hn u n Hu Hin)).
Qed.

(** ** Sums over the fleet *)

Lemma sum_upto_ext : forall N f g, (forall u, (u < N)%nat -> f u = g u) -> sum_upto N f = sum_upto N g.
Proof. induction N; intros f g H; simpl; trivial. rewrite (H N) by lia. rewrite (IHN f g); trivial. intros; apply H; lia. Qed.

Lemma sum_upto_plus : forall N f g, sum_upto N (fun u => f u + g u) = sum_upto N f + sum_upto N g.
Proof. induction N; intros; simpl; [ring|]. rewrite IHN. ring. Qed.

Lemma sum_upto_zero : forall N, sum_upto N (fun _ => 0) = 0.
Proof. induction N; simpl; lra. Qed.

Lemma sum_upto_swap : forall N M (f : nat -> nat -> R),
  sum_upto N (fun u => sum_upto M (f u)) = sum_upto M (fun v => sum_upto N (fun u => f u v)).
Proof.
  induction N; intros M f; simpl.
  - now rewrite sum_upto_zero.
  - rewrite IHN. rewrite <- sum_upto_plus. now apply sum_upto_ext.
Qed.

Lemma sum_upto_le : forall N f g, (forall u, (u < N)%nat -> f u <= g u) -> sum_upto N f <= sum_upto N g.
Proof.
  induction N; intros f g H; simpl; [lra|]. assert (f N <= g N) by (apply H; lia).
  assert (sum_upto N f <= sum_upto N g) by (apply IHN; intros; apply H; lia). lra.
Qed.

Definition pick (l : list nat) (n : nat) : bool := existsb (Nat.eqb n) l.

Lemma pick_in : forall l n, pick l n = true <-> In n l.
Proof.
  intros. unfold pick. rewrite existsb_exists. split.
  - intros [m [H E]]. apply Nat.eqb_eq in E. now subst.
  - intros H. exists n. split; [trivial|apply Nat.eqb_refl].
Qed.

Lemma sum_single : forall N f n, (n < N)%nat -> sum_upto N (fun m => if (m =? n)%nat then f m else 0) = f n.
Proof.
  induction N; intros f n H; [lia|]. simpl. destruct (Nat.eqb_spec N n) as [->|E].
  - rewrite (sum_upto_ext n _ (fun _ => 0)), sum_upto_zero; [ring|].
    intros u Hu. now rewrite (proj2 (Nat.eqb_neq u n)) by lia.
  - rewrite IHN by lia. ring.
Qed.

Lemma list_sum_pick : forall N f l, NoDup l -> (forall n, In n l -> (n < N)%nat) ->
  fold_right Rplus 0 (map f l) = sum_upto N (fun n => if pick l n then f n else 0).
Proof.
  intros N f l. induction l as [|n l IH]; intros Hd Hr; simpl.
  - now rewrite sum_upto_zero.
  - inversion Hd; subst. rewrite IH; trivial; [|intros; apply Hr; simpl; auto].
    rewrite <- (sum_single N f n) at 1 by (apply Hr; simpl; auto).
    rewrite <- sum_upto_plus. apply sum_upto_ext. intros m _. unfold pick. simpl.
    destruct (Nat.eqb_spec m n) as [->|E]; simpl; [|ring].
    destruct (existsb (Nat.eqb n) l) eqn:X; [|ring]. exfalso. apply H1. now apply pick_in.
Qed.

Lemma neighbour_swap : forall N nb (f : nat -> nat -> R), neighbourhood N nb ->
  sum_upto N (fun u => fold_right Rplus 0 (map (fun n => f n u) (nb u))) =
  sum_upto N (fun n => fold_right Rplus 0 (map (fun u => f n u) (nb n))).
Proof.
  intros N nb f H.
  rewrite (sum_upto_ext N _ (fun u => sum_upto N (fun n => if pick (nb u) n then f n u else 0))).
  - rewrite sum_upto_swap. apply sum_upto_ext. intros n Hn. destruct (H n Hn) as [D R].
    rewrite (list_sum_pick N) by (trivial; intros m Hm; now apply R).
    apply sum_upto_ext. intros u Hu. destruct (H u Hu) as [D' R'].
    destruct (pick (nb u) n) eqn:X, (pick (nb n) u) eqn:Y; trivial.
    + apply pick_in in X. apply R' in X as [_ X]. apply pick_in in X. congruence.
    + apply pick_in in Y. apply R in Y as [_ Y]. apply pick_in in Y. congruence.
  - intros u Hu. destruct (H u Hu) as [D R]. rewrite (list_sum_pick N); trivial. intros n Hn. now apply R.
Qed.

(** ** Variational inequality of the x-update *)

Lemma small_t : forall a q, (forall t, 0 < t <= 1 -> 0 <= t * a + t * t * q) -> 0 <= a.
Proof.
  intros a q H. destruct (Rle_or_lt 0 a) as [P|P]; trivial. exfalso.
  destruct (Rle_or_lt q 0) as [Q|Q].
  - specialize (H 1 ltac:(lra)). lra.
  - pose (t := Rmin 1 (- a / (2 * q))).
    assert (Hp : 0 < - a / (2 * q)) by (apply Rdiv_lt_0_compat; lra).
    assert (Ht : 0 < t <= 1) by (split; [apply Rmin_glb_lt; lra|apply Rmin_l]).
    specialize (H t Ht).
    assert (K : t * q <= - a / 2).
    { replace (- a / 2) with (- a / (2 * q) * q) by (field; lra). apply Rmult_le_compat_r; [lra|apply Rmin_r]. }
    assert (0 <= a + t * q).
    { apply (Rmult_le_reg_l t); [lra|]. rewrite Rmult_0_r. lra. }
    lra.
Qed.

Lemma penalty_line : forall (l : vec) z d t, length z = length d -> length l = length d ->
  dot l (vsub (vadd z (vscale t d)) z) = t * dot l d /\
  sqn (vsub (vadd z (vscale t d)) z) = t * t * sqn d.
Proof.
  intros l z d t H H'.
  assert (L : length (vadd z (vscale t d)) = length z) by (apply vadd_length; now rewrite vscale_length).
  assert (E : vsub (vadd z (vscale t d)) z = vscale t d).
  { apply vec_ext.
    - rewrite vsub_length, vscale_length; congruence.
    - intros k. rewrite vsub_nth by congruence. rewrite vadd_nth by (rewrite vscale_length; trivial). ring. }
  rewrite E. split; [apply dot_scale_r|]. unfold sqn. rewrite dot_scale_l, dot_scale_r. ring.
Qed.

Lemma x_variational : forall rho nb dim u d (X : vec -> Prop) J y,
  sized nb dim u d -> z_i d = x_i d -> (forall n, In n (nb u) -> z_ji d n = x_i d) ->
  convex_on (dim u) X J -> X (x_i d) -> X y -> length y = dim u ->
  (forall w, X w -> length w = dim u ->
     J (x_i d) + x_penalty rho nb u d (x_i d) <= J w + x_penalty rho nb u d w) ->
  0 <= J y - J (x_i d) + (dot (l_i d) (vsub y (x_i d)) +
        fold_right Rplus 0 (map (fun n => dot (l_ji d n) (vsub y (x_i d))) (nb u))).
Proof.
  intros rho nb dim u d X J y [Sx [Sz [Sl Sn]]] Ez Ezj C Xx Xy Ly M.
  set (x := x_i d) in *. set (e := vsub y x).
  assert (Le : length e = dim u) by (unfold e; rewrite vsub_length; congruence).
  assert (P : forall t, x_penalty rho nb u d (vadd x (vscale t e)) =
     t * (dot (l_i d) e + fold_right Rplus 0 (map (fun n => dot (l_ji d n) e) (nb u))) +
     t * t * (1 / 2 * rho * sqn e + fold_right Rplus 0 (map (fun n => 1 / 2 * rho * sqn e) (nb u)))).
  { intros t. unfold x_penalty. rewrite Ez.
    destruct (penalty_line (l_i d) x e t ltac:(congruence) ltac:(congruence)) as [E1 E2]. rewrite E1, E2.
    assert (G : forall ns, (forall n, In n ns -> In n (nb u)) ->
      fold_right Rplus 0 (map (fun n => dot (l_ji d n) (vsub (vadd x (vscale t e)) (z_ji d n)) +
          1 / 2 * rho * sqn (vsub (vadd x (vscale t e)) (z_ji d n))) ns) =
      t * fold_right Rplus 0 (map (fun n => dot (l_ji d n) e) ns) +
      t * t * fold_right Rplus 0 (map (fun n => 1 / 2 * rho * sqn e) ns)).
    { induction ns as [|n ns IH]; intros Hns; cbn [map fold_right]; [ring|].
      rewrite IH by (intros; apply Hns; simpl; auto).
      assert (Hn : In n (nb u)) by (apply Hns; simpl; auto).
      rewrite (Ezj n Hn). destruct (Sn n Hn) as [_ [_ [_ [_ Lj]]]].
      destruct (penalty_line (l_ji d n) x e t ltac:(congruence) ltac:(congruence)) as [F1 F2].
      rewrite F1, F2. ring. }
    rewrite G by trivial. ring. }
  assert (P0 : x_penalty rho nb u d x = 0).
  { pose proof (P 0) as P0. replace (vadd x (vscale 0 e)) with x in P0; [rewrite P0; ring|].
    apply vec_ext; [rewrite vadd_length; rewrite ?vscale_length; congruence|].
    intros k. rewrite vadd_nth, vscale_nth by (rewrite vscale_length; congruence). ring. }
  apply small_t with (q := 1 / 2 * rho * sqn e + fold_right Rplus 0 (map (fun n => 1 / 2 * rho * sqn e) (nb u))).
  intros t Ht.
  assert (Lw : length (vadd x (vscale t e)) = dim u)
    by (rewrite vadd_length; rewrite ?vscale_length; congruence).
  destruct (C x y (vadd x (vscale t e)) t Sx Ly Lw Xx Xy ltac:(lra)) as [Xw Jw].
  { intros k. rewrite vadd_nth, vscale_nth by (rewrite vscale_length; congruence).
    unfold e. rewrite vsub_nth by congruence. ring. }
  specialize (M _ Xw Lw). rewrite P0, P in M. lra.
Qed.

(** ** Stationary states are optimal *)

Lemma upd_l_fixed : forall rho l x z, 0 < rho -> length l = length x -> length x = length z ->
  upd_l rho l x z = l -> x = z.
Proof.
  intros rho l x z Hr H1 H2 E. apply vec_ext; trivial. intros k.
  apply (f_equal (fun v => nth k v 0)) in E. unfold upd_l in E.
  rewrite vadd_nth, vscale_nth, vsub_nth in E by (rewrite ?vscale_length, ?vsub_length; congruence).
  assert (rho * (nth k x 0 - nth k z 0) = 0) by lra.
  apply Rmult_integral in H as [H|H]; lra.
Qed.

Lemma no_shift : forall N tf s v, for_all N (init_step (fun _ => false) tf) s v = s v.
Proof. intros. rewrite shift_local. simpl. now destruct (v <? N)%nat. Qed.

Lemma stationary_optimal : forall N nb rho tf solver zsolver s A b dim total_dim X J,
  let s3 := first_half N nb (fun _ => false) tf solver s in
  let s' := dual_update N nb rho (fun _ => false) tf solver zsolver None s in
  0 < rho -> neighbourhood N nb ->
  (forall u, (u < N)%nat ->
     rows (total_dim u) (A u) /\ length (b u) = length (A u) /\
     total_dim u = length (stack nb u (x_i (s u)) (fun n => x_i (s n))) /\
     sized nb dim u (s u) /\ same_on nb u (s' u) (s u) /\
     z_outcome rho nb (A u) (b u) (total_dim u) u (s3 u)
               (fst (zsolver u (s3 u))) (snd (zsolver u (s3 u))) /\
     convex_on (dim u) (X u) (J u) /\
     X u (solver u (s u)) /\
     (forall w, X u w -> length w = dim u ->
        J u (solver u (s u)) + x_penalty rho nb u (s u) (solver u (s u)) <=
        J u w + x_penalty rho nb u (s u) w)) ->
  (forall u, (u < N)%nat -> X u (x_i (s u)) /\
     apply_rows (A u) (gather nb (fun v => x_i (s v)) u) = b u) /\
  forall y, (forall u, (u < N)%nat -> length (y u) = dim u /\ X u (y u) /\
               apply_rows (A u) (gather nb y u) = b u) ->
    sum_upto N (fun u => J u (x_i (s u))) <= sum_upto N (fun u => J u (y u)).
Proof.
  intros N nb rho tf solver zsolver s A b dim tdim X J s3 s' Hr Hnb H.
  set (s2 := for_all N (update_x solver) (for_all N (init_step (fun _ => false) tf) s)).
  assert (S2 : forall u, (u < N)%nat -> s2 u =
     mkUpd (solver u (s u)) (z_i (s u)) (z_i_p (s u)) (l_i (s u)) (l_i_p (s u)) (x_j (s u)) (z_ij (s u))
           (z_ij_p (s u)) (l_ij (s u)) (l_ij_p (s u)) (z_ji (s u)) (l_ji (s u))).
  { intros u Hu. unfold s2.
    rewrite (for_all_local (update_x solver)
      (fun u d => mkUpd (solver u d) (z_i d) (z_i_p d) (l_i d) (l_i_p d) (x_j d) (z_ij d) (z_ij_p d)
                 (l_ij d) (l_ij_p d) (z_ji d) (l_ji d))) by reflexivity.
    rewrite (proj2 (Nat.ltb_lt u N)) by trivial. now rewrite no_shift. }
  assert (S3 : forall u, (u < N)%nat -> own (s3 u) (s2 u)) by (intros; apply communicate_all_own).
  assert (Ex : forall u, (u < N)%nat -> x_i (s u) = solver u (s u) /\ x_i (s3 u) = x_i (s u)).
  { intros u Hu. destruct (H u Hu) as [_ [_ [_ [_ [[E _] _]]]]].
    destruct (update_fields N nb rho (fun _ => false) tf solver zsolver s u Hu) as [F _].
    fold s' in F. fold s3 in F. destruct (S3 u Hu) as [G _]. rewrite (S2 u Hu) in G. simpl in G.
    split; congruence. }
  assert (Exj : forall u n, (u < N)%nat -> In n (nb u) -> x_j (s3 u) n = x_i (s n) /\ x_j (s u) n = x_i (s n)).
  { intros u n Hu Hn. destruct (Hnb u Hu) as [_ R]. destruct (R n Hn) as [Hn' _].
    destruct (update_x_j N nb rho (fun _ => false) tf solver zsolver s u n Hu Hn Hn') as [F1 F2].
    fold s' in F1, F2. fold s3 in F2.
    destruct (H n Hn') as [_ [_ [_ [_ [[E _] _]]]]].
    destruct (H u Hu) as [_ [_ [_ [_ [[_ [_ [_ E2]]] _]]]]]. destruct (E2 n Hn) as [E3 _].
    split; congruence. }
  assert (El : forall u, (u < N)%nat -> l_i (s3 u) = l_i (s u) /\ l_ij (s3 u) = l_ij (s u)).
  { intros u Hu. destruct (S3 u Hu) as [_ [_ [_ [G1 [_ [_ [_ [G2 _]]]]]]]]. rewrite (S2 u Hu) in G1, G2. auto. }
  assert (Ez : forall u, (u < N)%nat -> z_i (s u) = x_i (s u) /\
     fst (zsolver u (s3 u)) = x_i (s u) /\
     upd_l rho (l_i (s u)) (x_i (s u)) (fst (zsolver u (s3 u))) = l_i (s u) /\
     forall n, In n (nb u) -> z_ij (s u) n = x_i (s n) /\ snd (zsolver u (s3 u)) n = x_i (s n) /\
       upd_l rho (l_ij (s u) n) (x_i (s n)) (snd (zsolver u (s3 u)) n) = l_ij (s u) n).
  { intros u Hu. destruct (H u Hu) as [_ [_ [_ [[L1 [L2 [L3 L4]]] [[_ [E2 [E3 E4]]] _]]]]].
    destruct (update_fields N nb rho (fun _ => false) tf solver zsolver s u Hu) as [_ [F2 [F3 [F4 F5]]]].
    fold s' in F2, F3, F4, F5. fold s3 in F2, F3, F4, F5.
    destruct (El u Hu) as [G1 G2]. destruct (Ex u Hu) as [_ G3].
    assert (K : upd_l rho (l_i (s u)) (x_i (s u)) (z_i (s u)) = l_i (s u)) by congruence.
    assert (K' : x_i (s u) = z_i (s u)).
    { apply (upd_l_fixed rho (l_i (s u))); trivial; congruence. }
    split; [congruence|]. split; [congruence|]. split; [congruence|].
    intros n Hn. destruct (E4 n Hn) as [M1 [M2 [M3 _]]]. destruct (L4 n Hn) as [N1 [N2 [N3 _]]].
    destruct (Exj u n Hu Hn) as [P1 P2].
    assert (Q : upd_l rho (l_ij (s u) n) (x_i (s n)) (z_ij (s u) n) = l_ij (s u) n).
    { rewrite <- M3 at 2. rewrite F5. rewrite P1, G2. f_equal. congruence. }
    assert (Q' : x_i (s n) = z_ij (s u) n).
    { apply (upd_l_fixed rho (l_ij (s u) n)); trivial; congruence. }
    split; [congruence|]. split; [congruence|]. rewrite <- F3, M2. exact Q. }
  (* copies of z and l *)
  assert (Ec : forall u n, (u < N)%nat -> In n (nb u) ->
     z_ji (s u) n = x_i (s u) /\ l_ji (s u) n = l_ij (s n) u).
  { intros u n Hu Hn. destruct (Hnb u Hu) as [_ R]. destruct (R n Hn) as [Hn' Hun].
    destruct (dual_update_agree N nb rho (fun _ => false) tf solver zsolver None s u n Hu Hn) as [_ [C1 C2]].
    fold s' in C1, C2.
    destruct (H u Hu) as [_ [_ [_ [_ [[_ [_ [_ E]]] _]]]]]. destruct (E n Hn) as [_ [_ [_ [E1 E2]]]].
    destruct (H n Hn') as [_ [_ [_ [_ [[_ [_ [_ E']]] _]]]]]. destruct (E' u Hun) as [_ [E3 [E4 _]]].
    destruct (Ez n Hn') as [_ [_ [_ Z]]]. destruct (Z u Hun) as [Z1 _]. split; congruence. }
  (* stacked vectors *)
  assert (St : forall u, (u < N)%nat ->
     stack nb u (x_i (s3 u)) (x_j (s3 u)) = gather nb (fun v => x_i (s v)) u /\
     stack nb u (l_i (s3 u)) (l_ij (s3 u)) = stack nb u (l_i (s u)) (l_ij (s u)) /\
     stack nb u (fst (zsolver u (s3 u))) (snd (zsolver u (s3 u))) = gather nb (fun v => x_i (s v)) u).
  { intros u Hu. unfold stack, gather. destruct (Ex u Hu) as [_ X1]. destruct (El u Hu) as [L1 L2].
    destruct (Ez u Hu) as [_ [Z1 [_ Z2]]]. rewrite X1, L1, L2, Z1. split; [|split]; trivial.
    - f_equal. f_equal. apply map_ext_in. intros n Hn. now apply Exj.
    - f_equal. f_equal. apply map_ext_in. intros n Hn. now apply Z2. }
  assert (Len : forall u, (u < N)%nat -> length (gather nb (fun v => x_i (s v)) u) = tdim u /\
     length (stack nb u (l_i (s u)) (l_ij (s u))) = tdim u).
  { intros u Hu. destruct (H u Hu) as [_ [_ [E [[L1 [_ [L3 L4]]] _]]]]. split.
    - now symmetry.
    - rewrite E. unfold stack. rewrite !app_length. f_equal; [congruence|].
      apply concat_map_len. intros n Hn. destruct (L4 n Hn) as [_ [_ [N3 _]]].
      destruct (Hnb u Hu) as [_ R]. destruct (R n Hn) as [Hn' _].
      destruct (H n Hn') as [_ [_ [_ [[M1 _] _]]]]. congruence. }
  assert (Feas : forall u, (u < N)%nat -> apply_rows (A u) (gather nb (fun v => x_i (s v)) u) = b u).
  { intros u Hu. destruct (H u Hu) as [H1 [H2 [_ [_ [_ [H5 _]]]]]]. destruct (St u Hu) as [T1 [T2 T3]].
    destruct (Len u Hu) as [Q1 Q2]. unfold z_outcome in H5. rewrite T1, T2, T3 in H5.
    rewrite <- mv_rows. now apply (upd_z_feasible rho (tdim u) (A u) (b u) _ _ _ H1 H2 Q1 Q2 H5). }
  assert (Row : forall u, (u < N)%nat -> forall w, length w = tdim u -> mv (A u) w = repeat 0 (length (A u)) ->
     dot (stack nb u (l_i (s u)) (l_ij (s u))) w = 0).
  { intros u Hu w Lw K. destruct (H u Hu) as [H1 [H2 [_ [L [_ [H5 _]]]]]]. destruct (St u Hu) as [T1 [T2 T3]].
    destruct (Len u Hu) as [Q1 Q2]. unfold z_outcome in H5. rewrite T1, T2, T3 in H5.
    pose proof (upd_l_orthogonal rho (tdim u) (A u) (b u) _ _ _ Hr H1 Q1 Q2 H5 w Lw K) as O.
    rewrite <- O. f_equal.
    rewrite <- T3 at 2. unfold stack, gather. destruct L as [L1 [_ [L3 L4]]].
    destruct (Ez u Hu) as [_ [Z1 [Z2 Z3]]].
    rewrite upd_l_app by congruence. rewrite Z2. f_equal.
    rewrite upd_l_concat.
    - f_equal. apply map_ext_in. intros n Hn. symmetry. now apply Z3.
    - intros n Hn. destruct (L4 n Hn) as [_ [_ [N3 _]]]. destruct (Z3 n Hn) as [_ [Z4 _]].
      destruct (Hnb u Hu) as [_ R]. destruct (R n Hn) as [Hn' _].
      destruct (H n Hn') as [_ [_ [_ [[M1 _] _]]]]. split; congruence. }
  split.
  - intros u Hu. split; [|now apply Feas]. destruct (H u Hu) as [_ [_ [_ [_ [_ [_ [_ [P _]]]]]]]].
    destruct (Ex u Hu) as [-> _]. exact P.
  - intros y Hy. set (e := fun u => vsub (y u) (x_i (s u))).
    assert (V : forall u, (u < N)%nat -> 0 <= J u (y u) - J u (x_i (s u)) +
       (dot (l_i (s u)) (e u) + fold_right Rplus 0 (map (fun n => dot (l_ij (s n) u) (e u)) (nb u)))).
    { intros u Hu. destruct (H u Hu) as [_ [_ [_ [L [_ [_ [C [P M]]]]]]]]. destruct (Hy u Hu) as [Y1 [Y2 _]].
      destruct (Ex u Hu) as [E1 _]. destruct (Ez u Hu) as [E2 _]. rewrite <- E1 in P, M.
      rewrite (map_ext_in (fun n => dot (l_ij (s n) u) (e u)) (fun n => dot (l_ji (s u) n) (e u))).
      - apply (x_variational rho nb dim u (s u) (X u) (J u) (y u)); trivial.
        intros n Hn. now apply Ec.
      - intros n Hn. now rewrite (proj2 (Ec u n Hu Hn)). }
    assert (Z : sum_upto N (fun u => dot (l_i (s u)) (e u) +
        fold_right Rplus 0 (map (fun n => dot (l_ij (s n) u) (e u)) (nb u))) = 0).
    { rewrite sum_upto_plus. rewrite (neighbour_swap N nb (fun n u => dot (l_ij (s n) u) (e u)) Hnb).
      rewrite <- sum_upto_plus. rewrite (sum_upto_ext N _ (fun _ => 0)); [apply sum_upto_zero|].
      intros u Hu. destruct (H u Hu) as [_ [_ [_ [[L1 [_ [L3 L4]]] _]]]].
      assert (Lx : forall n, In n (nb u) -> length (x_i (s n)) = dim n /\ length (y n) = dim n).
      { intros n Hn. destruct (Hnb u Hu) as [_ R]. destruct (R n Hn) as [Hn' _].
        destruct (H n Hn') as [_ [_ [_ [[M1 _] _]]]]. destruct (Hy n Hn') as [Y1 _]. auto. }
      destruct (Hy u Hu) as [Y1 [_ Y3]].
      assert (D : stack nb u (e u) e = vsub (gather nb y u) (gather nb (fun v => x_i (s v)) u)).
      { unfold gather, stack, e. rewrite vsub_app by congruence. f_equal. symmetry. apply vsub_concat.
        intros n Hn. destruct (Lx n Hn). congruence. }
      assert (LL : length (gather nb y u) = length (gather nb (fun v => x_i (s v)) u)).
      { unfold gather. rewrite !app_length. f_equal; [congruence|]. apply concat_map_len.
        intros n Hn. destruct (Lx n Hn). congruence. }
      assert (K : mv (A u) (stack nb u (e u) e) = repeat 0 (length (A u))).
      { rewrite D, mv_sub by trivial. pose proof (Feas u Hu) as Fe. rewrite <- mv_rows in Y3, Fe. rewrite Y3, Fe, vsub_self.
        destruct (H u Hu) as [_ [H2 _]]. now rewrite H2. }
      assert (Ls : length (stack nb u (e u) e) = tdim u).
      { rewrite D, vsub_length by trivial. rewrite LL. now apply Len. }
      pose proof (Row u Hu _ Ls K) as O. unfold stack in O.
      assert (Le : forall n, length (x_i (s n)) = dim n -> length (y n) = dim n -> length (e n) = dim n).
      { intros n Q1 Q2. unfold e. rewrite vsub_length; congruence. }
      rewrite dot_app in O by (rewrite (Le u); congruence).
      rewrite dot_concat in O; trivial.
      intros n Hn. destruct (Lx n Hn). destruct (L4 n Hn) as [_ [_ [N3 _]]]. rewrite (Le n); congruence. }
    assert (S : 0 <= sum_upto N (fun u => J u (y u) - J u (x_i (s u)) +
       (dot (l_i (s u)) (e u) + fold_right Rplus 0 (map (fun n => dot (l_ij (s n) u) (e u)) (nb u))))).
    { pose proof (sum_upto_le N (fun _ => 0) _ V) as W. rewrite sum_upto_zero in W. exact W. }
    rewrite sum_upto_plus, Z in S.
    rewrite (sum_upto_ext N (fun u => J u (y u) - J u (x_i (s u)))
               (fun u => J u (y u) + (-1) * J u (x_i (s u)))) in S by (intros; ring).
    rewrite sum_upto_plus in S.
    assert (Sc : forall M f, sum_upto M (fun u => -1 * f u) = - sum_upto M f).
    { induction M; intros f; simpl; [ring|]. rewrite IHM. ring. }
    rewrite (Sc N (fun u => J u (x_i (s u)))) in S. lra.
Qed.

(** The primal residual in terms of the plain sums. *)
Lemma total_sum : forall N f, total N f = sum_upto N f.
Proof.
  intros N f. unfold total. induction N as [|N IH]; [reflexivity|].
  rewrite seq_S, map_app, fold_right_app. cbn [Nat.add map fold_right sum_upto]. rewrite <- IH.
  generalize (map f (seq 0 N)) as l. induction l as [|x l IHl]; simpl; [ring|]. rewrite IHl. ring.
Qed.

Lemma p_res_spec : forall N nb s, 0 <= p_res N nb s /\
  p_res N nb s ^ 2 = sum_upto N (fun u => inner (minus (x_i (s u)) (z_i (s u))) (minus (x_i (s u)) (z_i (s u))) +
     fold_right Rplus 0 (map (fun n => inner (minus (x_j (s u) n) (z_ij (s u) n)) (minus (x_j (s u) n) (z_ij (s u) n))) (nb u))).
Proof.
  intros N nb s. split; [apply sqrt_pos|]. rewrite p_res_square, total_sum. apply sum_upto_ext.
  intros u _. unfold primal_sq, sqn. rewrite vsub_minus, dot_inner. f_equal. f_equal.
  apply map_ext. intros n. now rewrite vsub_minus, dot_inner.
Qed.
