From Coq Require Import ZArith QArith Qabs Qround List Bool Lia Lqa.
Import ListNotations.
From Verif Require Import Grid_Model AStar_Model AStar_Spec AStar_Proofs AStar_Proofs2 Grid_Proofs.
Open Scope Z_scope.

(* ---------- minimum and maximum of a list ---------- *)
Lemma lmin_spec l : l <> [] -> In (lmin l) l /\ forall a, In a l -> (lmin l <= a)%Q.
Proof.
  destruct l as [|m l]; [congruence|]. intros _. unfold lmin. simpl hd; simpl tl.
  revert m; induction l as [|b l IH]; intros m.
  - simpl. split; auto. intros a [->|[]]; lra.
  - cbn [fold_left]. destruct (Qltb b m) eqn:E.
    + apply Qltb_lt in E. destruct (IH b) as [I1 I2]. split.
      * simpl in *; tauto.
      * intros a [<-|[<-|Ha]]; [|apply I2; simpl; auto|apply I2; simpl; auto].
        eapply Qle_trans; [apply I2; simpl; auto|lra].
    + apply Qltb_ge in E. destruct (IH m) as [I1 I2]. split.
      * simpl in *; tauto.
      * intros a [<-|[<-|Ha]]; [apply I2; simpl; auto| |apply I2; simpl; auto].
        eapply Qle_trans; [apply I2; simpl; auto|lra].
Qed.
Lemma lmax_spec l : l <> [] -> In (lmax l) l /\ forall a, In a l -> (a <= lmax l)%Q.
Proof.
  destruct l as [|m l]; [congruence|]. intros _. unfold lmax. simpl hd; simpl tl.
  revert m; induction l as [|b l IH]; intros m.
  - simpl. split; auto. intros a [->|[]]; lra.
  - cbn [fold_left]. destruct (Qltb m b) eqn:E.
    + apply Qltb_lt in E. destruct (IH b) as [I1 I2]. split.
      * simpl in *; tauto.
      * intros a [<-|[<-|Ha]]; [|apply I2; simpl; auto|apply I2; simpl; auto].
        eapply Qle_trans; [|apply I2; simpl; auto]. lra.
    + apply Qltb_ge in E. destruct (IH m) as [I1 I2]. split.
      * simpl in *; tauto.
      * intros a [<-|[<-|Ha]]; [apply I2; simpl; auto| |apply I2; simpl; auto].
        eapply Qle_trans; [|apply I2; simpl; auto]. lra.
Qed.

Lemma lmin_lt (f : Q * Q -> Q) vs x : vs <> [] ->
  ((lmin (map f vs) < x)%Q <-> exists a, In a vs /\ (f a < x)%Q).
Proof.
  intros N. destruct (lmin_spec (map f vs)) as [I1 I2]; [destruct vs; simpl; congruence|].
  split.
  - intros H. apply in_map_iff in I1. destruct I1 as (a & E & Ha). exists a. rewrite E. auto.
  - intros (a & Ha & H). eapply Qle_lt_trans; [apply I2; apply in_map; eauto|auto].
Qed.
Lemma lmax_gt (f : Q * Q -> Q) vs x : vs <> [] ->
  ((x < lmax (map f vs))%Q <-> exists a, In a vs /\ (x < f a)%Q).
Proof.
  intros N. destruct (lmax_spec (map f vs)) as [I1 I2]; [destruct vs; simpl; congruence|].
  split.
  - intros H. apply in_map_iff in I1. destruct I1 as (a & E & Ha). exists a. rewrite E. auto.
  - intros (a & Ha & H). eapply Qlt_le_trans; [eauto|apply I2; apply in_map; auto].
Qed.

Lemma in_box_hull vs z : vs <> [] -> (in_box vs z = true <-> in_hull_box vs z).
Proof.
  intros N. unfold in_box, in_hull_box. rewrite !andb_true_iff, !Qltb_lt.
  rewrite !(lmin_lt _ _ _ N), !(lmax_gt _ _ _ N).
  split.
  - intros [[(a & A1 & A2) (b & B1 & B2)] [(c & C1 & C2) (d & D1 & D2)]].
    split; [exists a, b|exists c, d]; auto.
  - intros [(a & b & A) (c & d & B)].
    split; split; [exists a|exists b|exists c|exists d]; tauto.
Qed.

Lemma hull_ext vs z z' : (fst z == fst z')%Q -> (snd z == snd z')%Q ->
  in_hull_box vs z -> in_hull_box vs z'.
Proof.
  intros E1 E2 [(a & b & A1 & A2 & A3 & A4) (c & d & B1 & B2 & B3 & B4)].
  split; [exists a, b|exists c, d]; repeat split; auto; lra.
Qed.

(* ---------- the cells enumerated by the planner ---------- *)
Lemma enum_In {A} (l : list A) n i a : In (i, a) (enum n l) <->
  exists k, nth_error l k = Some a /\ i = n + Z.of_nat k.
Proof.
  revert n; induction l as [|b l IH]; intros n; simpl.
  - split; [tauto|]. intros (k & H & _). destruct k; discriminate.
  - rewrite IH. split.
    + intros [H|(k & H & E)].
      * inversion H; subst. exists O. split; auto; lia.
      * exists (S k). split; auto; lia.
    + intros ([|k] & H & E).
      * left. simpl in H. inversion H; subst. f_equal. lia.
      * right. exists k. split; auto. lia.
Qed.

Lemma arange_nth start stop step n k v : (0 < step)%Q -> ((stop - start) / step == inject_Z n)%Q ->
  0 <= n -> (nth_error (arange start stop step) k = Some v <->
   (Z.of_nat k < n /\ v = (start + inject_Z (Z.of_nat k) * step)%Q)).
Proof.
  intros Hs E Hn. unfold arange. rewrite (Qceiling_comp _ _ E). rewrite Qceiling_Z.
  destruct (Nat.lt_ge_cases k (Z.to_nat n)) as [L|L].
  - erewrite map_nth_error; [|rewrite (nth_error_nth' _ O) by (rewrite seq_length; auto);
      rewrite seq_nth by auto; reflexivity].
    simpl. split.
    + intros H; inversion H; subst. split; [lia|auto].
    + intros [_ ->]. auto.
  - split.
    + intros H. assert (k < length (map (fun k0 => (start + inject_Z (Z.of_nat k0) * step)%Q) (seq 0 (Z.to_nat n))))%nat.
      { apply nth_error_Some. rewrite H. discriminate. }
      rewrite map_length, seq_length in H0. lia.
    + intros [H _]. lia.
Qed.

Lemma gw_cw g : wf_grid g -> (gw g / cw g == inject_Z (nx g))%Q.
Proof.
  intros W. pose proof (cw_pos g W). destruct W as (A & B & C & D). unfold cw in *.
  assert (0 < inject_Z (nx g))%Q. { change 0%Q with (inject_Z 0). rewrite <- Zlt_Qlt; auto. }
  field. split; lra.
Qed.
Lemma gh_ch g : wf_grid g -> (gh g / ch g == inject_Z (ny g))%Q.
Proof.
  intros W. pose proof (ch_pos g W). destruct W as (A & B & C & D). unfold ch in *.
  assert (0 < inject_Z (ny g))%Q. { change 0%Q with (inject_Z 0). rewrite <- Zlt_Qlt; auto. }
  field. split; lra.
Qed.

Definition cell_at (g : grid) (p : pos) : cell :=
  mkC ((px g - gw g * (1 # 2) + (1 # 2) * cw g + inject_Z (fst p) * cw g)%Q,
       (py g - gh g * (1 # 2) + (1 # 2) * ch g + inject_Z (snd p) * ch g)%Q) p.

Lemma all_cells_In g c : wf_grid g -> (In c (all_cells g) <-> exists p, inside g p /\ c = cell_at g p).
Proof.
  intros W. pose proof (cw_pos g W). pose proof (ch_pos g W). pose proof W as (A & B & C & D).
  unfold all_cells. rewrite in_flat_map.
  assert (Ex : ((px g + gw g * (1 # 2) + (1 # 2) * cw g - (px g - gw g * (1 # 2) + (1 # 2) * cw g)) / cw g
     == inject_Z (nx g))%Q). { rewrite <- (gw_cw g W). field. lra. }
  assert (Ey : ((py g + gh g * (1 # 2) + (1 # 2) * ch g - (py g - gh g * (1 # 2) + (1 # 2) * ch g)) / ch g
     == inject_Z (ny g))%Q). { rewrite <- (gh_ch g W). field. lra. }
  split.
  - intros ([i x] & Hi & Hc). apply in_map_iff in Hc. destruct Hc as ([j y] & <- & Hj).
    apply enum_In in Hi. apply enum_In in Hj.
    destruct Hi as (k & Hk & ->). destruct Hj as (l & Hl & ->).
    apply (arange_nth _ _ _ (nx g)) in Hk; [|auto|auto|lia].
    apply (arange_nth _ _ _ (ny g)) in Hl; [|auto|auto|lia].
    destruct Hk as [Hk ->], Hl as [Hl ->]. simpl fst; simpl snd.
    exists (0 + Z.of_nat k, 0 + Z.of_nat l). split; [unfold inside; simpl fst; simpl snd; lia|].
    unfold cell_at. simpl fst; simpl snd. rewrite !Z.add_0_l. auto.
  - intros ([i j] & [Hi Hj] & ->). simpl in Hi, Hj.
    exists (i, (px g - gw g * (1 # 2) + (1 # 2) * cw g + inject_Z i * cw g)%Q). split.
    + apply enum_In. exists (Z.to_nat i). split; [|lia].
      apply (arange_nth _ _ _ (nx g)); [auto|auto|lia|]. rewrite Z2Nat.id by lia. split; [lia|auto].
    + apply in_map_iff. exists (j, (py g - gh g * (1 # 2) + (1 # 2) * ch g + inject_Z j * ch g)%Q).
      split; [reflexivity|].
      apply enum_In. exists (Z.to_nat j). split; [|lia].
      apply (arange_nth _ _ _ (ny g)); [auto|auto|lia|]. rewrite Z2Nat.id by lia. split; [lia|auto].
Qed.

Lemma enum_NoDup {A} (l : list A) n : NoDup (map fst (enum n l)) /\ forall i, In i (map fst (enum n l)) -> n <= i.
Proof.
  revert n; induction l as [|a l IH]; intros n; simpl.
  - split; [constructor|tauto].
  - destruct (IH (n + 1)) as [I1 I2]. split.
    + constructor; auto. intros X. apply I2 in X. lia.
    + intros i [<-|Hi]; [lia|]. apply I2 in Hi. lia.
Qed.

Lemma NoDup_app_disj {A} (l1 l2 : list A) : NoDup l1 -> NoDup l2 ->
  (forall x, In x l1 -> In x l2 -> False) -> NoDup (l1 ++ l2).
Proof.
  induction l1 as [|a l IH]; simpl; intros N1 N2 D; auto. inversion N1; subst. constructor.
  - intros X. apply in_app_or in X. destruct X; [auto|]. eapply D; eauto.
  - apply IH; auto. intros x Hx. apply D; auto.
Qed.

Lemma all_cells_NoDup g : NoDup (map cidx (all_cells g)).
Proof.
  unfold all_cells. set (xs := arange _ _ (cw g)). set (ys := arange _ _ (ch g)).
  destruct (enum_NoDup xs 0) as [Nx _]. destruct (enum_NoDup ys 0) as [Ny _].
  revert Nx. generalize (enum 0 xs) as ex. generalize dependent (enum 0 ys). intros ey Ny ex.
  assert (R : forall ix : Z * Q, map cidx (map (fun jy : Z * Q => mkC (snd ix, snd jy) (fst ix, fst jy)) ey)
    = map (fun j => (fst ix, j)) (map fst ey)).
  { intros ix. rewrite !map_map. simpl. auto. }
  induction ex as [|ix ex IH]; simpl; intros Nx; [constructor|]. rewrite map_app, R.
  inversion Nx; subst. apply NoDup_app_disj.
  - clear - Ny. induction (map fst ey) as [|a l IH]; simpl; constructor; inversion Ny; subst; auto.
    intros X. apply in_map_iff in X. destruct X as (b & E & Hb). inversion E; subst; auto.
  - apply IH; auto.
  - intros [i j] H H'. apply in_map_iff in H. destruct H as (j' & E & _). inversion E; subst.
    apply in_map_iff in H'. destruct H' as (c & Ec & Hc). apply in_flat_map in Hc.
    destruct Hc as (iy & Hi & Hc). apply in_map_iff in Hc. destruct Hc as (jy & <- & _).
    simpl in Ec. inversion Ec; subst. apply H1. rewrite <- H0. apply in_map; auto.
Qed.

(* ---------- one obstacle ---------- *)
Lemma cell_corner g p z : In z (cell_vertices g (cell_at g p)) -> is_corner g p z.
Proof.
  unfold cell_vertices, cell_at, is_corner, centre_x, centre_y. simpl.
  intros H. repeat (destruct H as [<-|H]); try contradiction; simpl; split;
    try (left; ring); try (right; ring).
Qed.
Lemma corner_cell g p z : is_corner g p z -> exists z', In z' (cell_vertices g (cell_at g p)) /\
  (fst z == fst z')%Q /\ (snd z == snd z')%Q.
Proof.
  unfold is_corner, centre_x, centre_y. set (c := cell_at g p).
  assert (A : (fst (cpos c) == px g - gw g * (1 # 2) + cw g * (1 # 2) + inject_Z (fst p) * cw g)%Q)
    by (simpl; ring).
  assert (B : (snd (cpos c) == py g - gh g * (1 # 2) + ch g * (1 # 2) + inject_Z (snd p) * ch g)%Q)
    by (simpl; ring).
  rewrite <- A, <- B. unfold cell_vertices. intros [[H|H] [K|K]].
  - eexists; split; [left; reflexivity|auto].
  - eexists; split; [right; right; left; reflexivity|auto].
  - eexists; split; [right; left; reflexivity|auto].
  - eexists; split; [right; right; right; left; reflexivity|auto].
Qed.

Lemma cell_hull g p z : wf_grid g ->
  (in_hull_box (cell_vertices g (cell_at g p)) z <-> in_cell g p z).
Proof.
  intros W. pose proof (cw_pos g W). pose proof (ch_pos g W). unfold in_cell. split.
  - intros [(a & b & A & B & L1 & L2) (c & d & C & D & L3 & L4)].
    apply cell_corner in A. apply cell_corner in B. apply cell_corner in C. apply cell_corner in D.
    destruct A as [A _], B as [B _], C as [_ C], D as [_ D].
    split; split.
    + destruct A as [A|A]; rewrite A in L1; lra.
    + destruct B as [B|B]; rewrite B in L2; lra.
    + destruct C as [C|C]; rewrite C in L3; lra.
    + destruct D as [D|D]; rewrite D in L4; lra.
  - intros [[A B] [C D]].
    set (x0 := (centre_x g (fst p) - (1#2) * cw g)%Q) in *.
    set (x1 := (centre_x g (fst p) + (1#2) * cw g)%Q) in *.
    set (y0 := (centre_y g (snd p) - (1#2) * ch g)%Q) in *.
    set (y1 := (centre_y g (snd p) + (1#2) * ch g)%Q) in *.
    assert (I0 : is_corner g p (x0, y0)) by (split; left; reflexivity).
    assert (I1 : is_corner g p (x1, y1)) by (split; right; reflexivity).
    destruct (corner_cell g p _ I0) as (u & Hu & U1 & U2).
    destruct (corner_cell g p _ I1) as (v & Hv & V1 & V2).
    simpl in U1, U2, V1, V2.
    split; exists u, v; repeat split; auto; lra.
Qed.

Lemma cell_hit_touches g vs p : wf_grid g -> vs <> [] ->
  (cell_hit g vs (cell_at g p) = true <-> touches g vs p).
Proof.
  intros W N. unfold cell_hit, touches.
  assert (Hc : in_box vs (cpos (cell_at g p)) = true <-> in_hull_box vs (waypoint g p)).
  { rewrite in_box_hull by auto.
    split; apply hull_ext; unfold cell_at, waypoint, centre_x, centre_y; simpl; ring. }
  assert (Hv : existsb (in_box vs) (cell_vertices g (cell_at g p)) = true <->
    exists z, is_corner g p z /\ in_hull_box vs z).
  { rewrite existsb_exists. split.
    - intros (z & Hz & B). exists z. split; [apply cell_corner; auto|apply in_box_hull; auto].
    - intros (z & Hz & B). destruct (corner_cell g p z Hz) as (z' & Hz' & E1 & E2).
      exists z'; split; auto. apply in_box_hull; auto. eapply hull_ext; eauto. }
  assert (Ho : existsb (in_box (cell_vertices g (cell_at g p))) vs = true <->
    exists v, In v vs /\ in_cell g p v).
  { rewrite existsb_exists. split; intros (v & Hv' & B); exists v; split; auto.
    - apply cell_hull; auto. apply in_box_hull; auto. discriminate.
    - apply in_box_hull; [discriminate|]. apply cell_hull; auto. }
  destruct (in_box vs (cpos (cell_at g p))).
  - intuition.
  - rewrite <- Hc, <- Hv, <- Ho. destruct (existsb (in_box vs) _); intuition discriminate.
Qed.

(* ---------- the loop over obstacles ---------- *)
Lemma obst_points_some g o : known_shape o -> exists vs, obst_points g o = Some vs /\ vs <> [].
Proof.
  unfold known_shape, obst_points. destruct (oshp o) as [vx vy|r|]; [intros [A B]|intros _|tauto].
  - eexists; split; [reflexivity|]. destruct vx, vy; simpl in *; congruence.
  - eexists; split; [reflexivity|]. discriminate.
Qed.

Lemma occ_loop_spec g obs : (forall o, In o obs -> known_shape o) -> forall prev cells acc,
  exists l, occ_loop g obs prev cells acc = OccOk l /\
   (forall p, In p l <-> In p acc \/ exists o vs c, In o obs /\ stationary o = true /\
      obst_points g o = Some vs /\ In c cells /\ cidx c = p /\ cell_hit g vs c = true) /\
   (NoDup (acc ++ map cidx cells) -> NoDup l).
Proof.
  induction obs as [|o obs IH]; intros K prev cells acc.
  - exists acc; simpl. split; auto. split.
    + intros p. split; auto. intros [H|(o & vs & c & [] & _)]; auto.
    + intros H. clear - H. induction acc as [|a acc IH]; [constructor|].
      simpl in H. inversion H; subst. constructor; auto. intros X; apply H2. apply in_or_app; auto.
  - assert (K' : forall o', In o' obs -> known_shape o') by (intros; apply K; simpl; auto).
    cbn [occ_loop]. destruct (stationary o) eqn:Es.
    + destruct (obst_points_some g o (K o (or_introl eq_refl))) as (vs & Ev & Nv).
      assert (L : forall prev', exists vs0, match oshp o with
                   | ORect vx vy => Some (rect_vertices g vx vy (opos o))
                   | OCircle r => Some (circle_vertices g r (opos o))
                   | OOther => prev' end = Some vs0 /\ round_vertices vs0 = vs).
      { intros prev'. pose proof (K o (or_introl eq_refl)) as Ko. unfold known_shape, obst_points in *.
        destruct (oshp o); try contradiction; inversion Ev; subst; eauto. }
      destruct (L prev) as (vs0 & E0 & E1). rewrite E0. cbv zeta. rewrite E1.
      set (hit := filter (cell_hit g vs) cells).
      set (rest := filter (fun c => negb (cell_hit g vs c)) cells).
      destruct (IH K' (Some vs) rest (acc ++ map cidx hit)) as (l & El & Hl & Nl).
      exists l. split; auto. split.
      * intros p. rewrite Hl. rewrite in_app_iff. split.
        -- intros [[H|H]|(o' & vs' & c & H1 & H2 & H3 & H4 & H5 & H6)]; auto.
           ++ apply in_map_iff in H. destruct H as (c & Ec & Hc). apply filter_In in Hc.
              right. exists o, vs, c. simpl. tauto.
           ++ right. exists o', vs', c. apply filter_In in H4. simpl. tauto.
        -- intros [H|(o' & vs' & c & [H1|H1] & H2 & H3 & H4 & H5 & H6)]; auto.
           ++ left; right. subst o'. rewrite Ev in H3. inversion H3; subst vs'.
              rewrite <- H5. apply in_map. apply filter_In; auto.
           ++ destruct (cell_hit g vs c) eqn:Eh.
              ** left; right. rewrite <- H5. apply in_map. apply filter_In; auto.
              ** right. exists o', vs', c. repeat split; auto. apply filter_In. rewrite Eh; auto.
      * intros N. apply Nl. rewrite <- app_assoc.
        assert (Pm : Permutation.Permutation (map cidx cells) (map cidx hit ++ map cidx rest)).
        { rewrite <- map_app. apply Permutation.Permutation_map. unfold hit, rest.
          clear. induction cells as [|c cells IH]; simpl; auto.
          destruct (cell_hit g vs c); simpl; [constructor; auto|].
          apply Permutation.Permutation_cons_app; auto. }
        eapply Permutation.Permutation_NoDup; [|apply N].
        apply Permutation.Permutation_app_head. auto.
    + destruct (IH K' prev cells acc) as (l & El & Hl & Nl). exists l. split; auto. split; auto.
      intros p. rewrite Hl. split.
      * intros [H|(o' & vs & c & H1 & H)]; auto. right. exists o', vs, c. simpl. tauto.
      * intros [H|(o' & vs & c & [H1|H1] & H2 & H)]; auto; [congruence|].
        right. exists o', vs, c. tauto.
Qed.

Theorem occupied_spec g obs : wf_grid g -> (forall o, In o obs -> known_shape o) ->
  exists l, get_occupied_cells g obs = OccOk l /\ NoDup l /\
  forall p, In p l <-> inside g p /\ exists o vs, In o obs /\ stationary o = true /\
                         obst_points g o = Some vs /\ touches g vs p.
Proof.
  intros W K. unfold get_occupied_cells.
  destruct (occ_loop_spec g obs K None (all_cells g) []) as (l & El & Hl & Nl).
  exists l. split; auto. split; [apply Nl; apply all_cells_NoDup|].
  intros p. rewrite Hl. split.
  - intros [[]|(o & vs & c & H1 & H2 & H3 & H4 & H5 & H6)].
    apply all_cells_In in H4; auto. destruct H4 as (p' & Hp & ->). simpl in H5. subst p'.
    split; auto. exists o, vs. repeat split; auto.
    destruct (obst_points_some g o (K o H1)) as (vs' & E' & N'). rewrite H3 in E'. inversion E'; subst.
    apply cell_hit_touches; auto.
  - intros (Hp & o & vs & H1 & H2 & H3 & H4). right. exists o, vs, (cell_at g p).
    destruct (obst_points_some g o (K o H1)) as (vs' & E' & N'). rewrite H3 in E'. inversion E'; subst vs'.
    repeat split; auto.
    + apply all_cells_In; eauto.
    + apply cell_hit_touches; auto.
Qed.

(* a blocked cell really meets the box of an obstacle *)
Lemma between (a b c d : Q) : (a < b -> c < d -> a < d -> c < b -> exists z, a < z /\ z < b /\ c < z /\ z < d)%Q.
Proof.
  intros H1 H2 H3 H4.
  destruct (Qlt_le_dec a c) as [A|A]; destruct (Qlt_le_dec b d) as [B|B].
  - exists ((c + b) / 2)%Q. repeat split; apply Qlt_shift_div_l || apply Qlt_shift_div_r; lra.
  - exists ((c + d) / 2)%Q. repeat split; apply Qlt_shift_div_l || apply Qlt_shift_div_r; lra.
  - exists ((a + b) / 2)%Q. repeat split; apply Qlt_shift_div_l || apply Qlt_shift_div_r; lra.
  - exists ((a + d) / 2)%Q. repeat split; apply Qlt_shift_div_l || apply Qlt_shift_div_r; lra.
Qed.

Theorem touches_overlap g vs p : wf_grid g -> (exists z, in_hull_box vs z) -> touches g vs p ->
  exists z, in_hull_box vs z /\ in_cell g p z.
Proof.
  intros W [z0 Hz0] H. pose proof (cw_pos g W). pose proof (ch_pos g W).
  destruct H as [H|[(z & Hc & H)|(v & Hv & H)]].
  - exists (waypoint g p). split; auto. unfold in_cell, waypoint; simpl. lra.
  - destruct H as [(a & b & A1 & A2 & A3 & A4) (c & d & B1 & B2 & B3 & B4)].
    destruct Hc as [Cx Cy].
    destruct (between (fst a) (fst b) (centre_x g (fst p) - (1#2) * cw g) (centre_x g (fst p) + (1#2) * cw g))
      as (x & X1 & X2 & X3 & X4); [lra|lra|destruct Cx; lra|destruct Cx; lra|].
    destruct (between (snd c) (snd d) (centre_y g (snd p) - (1#2) * ch g) (centre_y g (snd p) + (1#2) * ch g))
      as (y & Y1 & Y2 & Y3 & Y4); [lra|lra|destruct Cy; lra|destruct Cy; lra|].
    exists (x, y). split; [split; [exists a, b|exists c, d]; simpl; auto|].
    unfold in_cell; simpl. auto.
  - destruct Hz0 as [(a & b & A1 & A2 & A3 & A4) (c & d & B1 & B2 & B3 & B4)].
    destruct H as [[V1 V2] [V3 V4]].
    assert (X : exists a' b' x, In a' vs /\ In b' vs /\ (fst a' < x /\ x < fst b' /\
       centre_x g (fst p) - (1#2) * cw g < x /\ x < centre_x g (fst p) + (1#2) * cw g)%Q).
    { destruct (Qlt_le_dec (fst v) (fst b)) as [L|L].
      - destruct (between (fst v) (fst b) (centre_x g (fst p) - (1#2) * cw g) (centre_x g (fst p) + (1#2) * cw g))
          as (x & HX); [lra|lra|lra|lra|]. exists v, b, x. tauto.
      - destruct (between (fst a) (fst v) (centre_x g (fst p) - (1#2) * cw g) (centre_x g (fst p) + (1#2) * cw g))
          as (x & HX); [lra|lra|lra|lra|]. exists a, v, x. tauto. }
    assert (Y : exists c' d' y, In c' vs /\ In d' vs /\ (snd c' < y /\ y < snd d' /\
       centre_y g (snd p) - (1#2) * ch g < y /\ y < centre_y g (snd p) + (1#2) * ch g)%Q).
    { destruct (Qlt_le_dec (snd v) (snd d)) as [L|L].
      - destruct (between (snd v) (snd d) (centre_y g (snd p) - (1#2) * ch g) (centre_y g (snd p) + (1#2) * ch g))
          as (x & HX); [lra|lra|lra|lra|]. exists v, d, x. tauto.
      - destruct (between (snd c) (snd v) (centre_y g (snd p) - (1#2) * ch g) (centre_y g (snd p) + (1#2) * ch g))
          as (x & HX); [lra|lra|lra|lra|]. exists c, v, x. tauto. }
    destruct X as (a' & b' & x & X1 & X2 & X3 & X4 & X5 & X6).
    destruct Y as (c' & d' & y & Y1 & Y2 & Y3 & Y4 & Y5 & Y6).
    exists (x, y). split; [split; [exists a', b'|exists c', d']; simpl; auto|].
    unfold in_cell; simpl; auto.
Qed.

(* an obstacle box strictly larger than a cell in both directions is never missed *)
Theorem wide_detected g vs p : wf_grid g ->
  (exists a b, In a vs /\ In b vs /\ fst a + cw g < fst b)%Q ->
  (exists a b, In a vs /\ In b vs /\ snd a + ch g < snd b)%Q ->
  (exists z, in_hull_box vs z /\ in_cell g p z) -> touches g vs p.
Proof.
  intros W (a & b & A & B & L) (c & d & C & D & M) (z & [(a' & b' & A' & B' & P1 & P2) (c' & d' & C' & D' & P3 & P4)] & [[Z1 Z2] [Z3 Z4]]).
  right; left.
  set (x0 := (centre_x g (fst p) - (1#2) * cw g)%Q) in *.
  set (x1 := (centre_x g (fst p) + (1#2) * cw g)%Q) in *.
  set (y0 := (centre_y g (snd p) - (1#2) * ch g)%Q) in *.
  set (y1 := (centre_y g (snd p) + (1#2) * ch g)%Q) in *.
  assert (X1 : (x1 == x0 + cw g)%Q) by (unfold x0, x1; ring).
  assert (Y1 : (y1 == y0 + ch g)%Q) by (unfold y0, y1; ring).
  assert (X : exists x u v, (x == x0 \/ x == x1)%Q /\ In u vs /\ In v vs /\ (fst u < x /\ x < fst v)%Q).
  { destruct (Qlt_le_dec (fst a) x0) as [Y|Y]; [exists x0, a, b'; repeat split; auto; try (left; reflexivity); lra|].
    destruct (Qlt_le_dec (fst a') x0) as [Y'|Y']; [exists x0, a', b'; repeat split; auto; try (left; reflexivity); lra|].
    exists x1, a', b. repeat split; auto; [right; reflexivity|lra|lra]. }
  assert (Y : exists y u v, (y == y0 \/ y == y1)%Q /\ In u vs /\ In v vs /\ (snd u < y /\ y < snd v)%Q).
  { destruct (Qlt_le_dec (snd c) y0) as [Y|Y]; [exists y0, c, d'; repeat split; auto; try (left; reflexivity); lra|].
    destruct (Qlt_le_dec (snd c') y0) as [Y'|Y']; [exists y0, c', d'; repeat split; auto; try (left; reflexivity); lra|].
    exists y1, c', d. repeat split; auto; [right; reflexivity|lra|lra]. }
  destruct X as (x & u & v & Ex & Hu & Hv & X2 & X3).
  destruct Y as (y & s & t & Ey & Hs & Ht & Y2 & Y3).
  exists (x, y). split; [split; auto|]. split; [exists u, v|exists s, t]; auto.
Qed.

(* ---------- what the rounded vertices stand for ---------- *)
Lemma round4_near q : (q - (1 # 20000) <= round4 q <= q + (1 # 20000))%Q.
Proof.
  unfold round4. pose proof (round_bounds (q * 10000)) as [A B].
  set (r := inject_Z (py_round (q * 10000))) in *.
  split; [apply Qle_shift_div_l|apply Qle_shift_div_r]; lra.
Qed.

(* circle: the square of half-width r + offset around the centre, up to the
   rounding of numpy.round(., 4) *)
Theorem circle_box g r c z :
  let hx := (r + offx g)%Q in let hy := (r + offy g)%Q in let e := (1 # 20000)%Q in
  ((fst c - hx + e < fst z < fst c + hx - e)%Q /\ (snd c - hy + e < snd z < snd c + hy - e)%Q ->
   in_hull_box (round_vertices (circle_vertices g r c)) z) /\
  ((0 <= hx)%Q -> (0 <= hy)%Q -> in_hull_box (round_vertices (circle_vertices g r c)) z ->
   (fst c - hx - e < fst z < fst c + hx + e)%Q /\ (snd c - hy - e < snd z < snd c + hy + e)%Q).
Proof.
  cbv zeta. unfold round_vertices, circle_vertices. simpl map.
  set (xp := (fst c + r + offx g)%Q). set (xm := (fst c - r - offx g)%Q).
  set (yp := (snd c + r + offy g)%Q). set (ym := (snd c - r - offy g)%Q).
  pose proof (round4_near xp) as Xp. pose proof (round4_near xm) as Xm.
  pose proof (round4_near yp) as Yp. pose proof (round4_near ym) as Ym.
  unfold xp, xm, yp, ym in Xp, Xm, Yp, Ym. split.
  - intros [[A B] [C D]]. split.
    + exists (round4 xm, round4 ym), (round4 xp, round4 yp). simpl. unfold xp, xm. repeat split; auto; lra.
    + exists (round4 xm, round4 ym), (round4 xp, round4 yp). simpl. unfold yp, ym. repeat split; auto; lra.
  - intros Hx Hy [(a & b & A & B & L1 & L2) (s & t & S & T & L3 & L4)].
    assert (KA : forall v, In v [(round4 xp, round4 yp); (round4 xp, round4 ym); (round4 xm, round4 yp); (round4 xm, round4 ym)] ->
      (fst v = round4 xp \/ fst v = round4 xm) /\ (snd v = round4 yp \/ snd v = round4 ym)).
    { intros v H. simpl in H. repeat (destruct H as [<-|H]); try contradiction; simpl; auto. }
    apply KA in A. apply KA in B. apply KA in S. apply KA in T.
    unfold xp, xm, yp, ym in *.
    destruct A as [[A|A] _], B as [[B|B] _], S as [_ [S|S]], T as [_ [T|T]];
      rewrite A in L1; rewrite B in L2; rewrite S in L3; rewrite T in L4; lra.
Qed.

(* rectangle with vertices vx, vy: the box grows by the offset on every side *)
Theorem rect_box g vx vy c z x0 x1 y0 y1 :
  (exists k, nth_error vx k = Some x0 /\ k < length vy)%nat -> (exists k, nth_error vx k = Some x1 /\ k < length vy)%nat ->
  (exists k, nth_error vy k = Some y0 /\ k < length vx)%nat -> (exists k, nth_error vy k = Some y1 /\ k < length vx)%nat ->
  (x0 == lmin vx)%Q -> (y0 == lmin vy)%Q -> ~ (x1 == lmin vx)%Q -> ~ (y1 == lmin vy)%Q ->
  (x0 + fst c - offx g + (1#20000) < fst z < x1 + fst c + offx g - (1#20000))%Q ->
  (y0 + snd c - offy g + (1#20000) < snd z < y1 + snd c + offy g - (1#20000))%Q ->
  in_hull_box (round_vertices (rect_vertices g vx vy c)) z.
Proof.
  intros Hx0 Hx1 Hy0 Hy1 Ex Ey Nx Ny [Z1 Z2] [Z3 Z4].
  assert (Vx : forall x, (exists k, nth_error vx k = Some x /\ k < length vy)%nat ->
     exists v, In v (round_vertices (rect_vertices g vx vy c)) /\
       fst v = round4 (if Qeq_bool x (lmin vx) then x + fst c - offx g else x + fst c + offx g)%Q).
  { intros x (k & Hk & Lk). destruct (nth_error vy k) as [y|] eqn:E; [|apply nth_error_None in E; lia].
    assert (In (x, y) (combine vx vy)).
    { clear - Hk E. revert vx vy Hk E. induction k; intros [|a vx] [|b vy]; simpl; intros; try discriminate.
      - inversion Hk; inversion E; auto.
      - right; auto. }
    eexists. split; [unfold round_vertices, rect_vertices; rewrite map_map; apply in_map; eauto|]. reflexivity. }
  assert (Vy : forall y, (exists k, nth_error vy k = Some y /\ k < length vx)%nat ->
     exists v, In v (round_vertices (rect_vertices g vx vy c)) /\
       snd v = round4 (if Qeq_bool y (lmin vy) then y + snd c - offy g else y + snd c + offy g)%Q).
  { intros y (k & Hk & Lk). destruct (nth_error vx k) as [x|] eqn:E; [|apply nth_error_None in E; lia].
    assert (In (x, y) (combine vx vy)).
    { clear - Hk E. revert vx vy Hk E. induction k; intros [|a vx] [|b vy]; simpl; intros; try discriminate.
      - inversion Hk; inversion E; auto.
      - right; auto. }
    eexists. split; [unfold round_vertices, rect_vertices; rewrite map_map; apply in_map; eauto|]. reflexivity. }
  destruct (Vx x0 Hx0) as (a & A & Ea). destruct (Vx x1 Hx1) as (b & B & Eb).
  destruct (Vy y0 Hy0) as (s & S & Es). destruct (Vy y1 Hy1) as (t & T & Et).
  apply Qeq_bool_iff in Ex. apply Qeq_bool_iff in Ey. rewrite Ex in Ea. rewrite Ey in Es.
  rewrite (proj1 (not_true_iff_false _) (fun H => Nx (proj1 (Qeq_bool_iff _ _) H))) in Eb.
  rewrite (proj1 (not_true_iff_false _) (fun H => Ny (proj1 (Qeq_bool_iff _ _) H))) in Et.
  split; [exists a, b|exists s, t]; repeat split; auto.
  - rewrite Ea. pose proof (round4_near (x0 + fst c - offx g)). lra.
  - rewrite Eb. pose proof (round4_near (x1 + fst c + offx g)). lra.
  - rewrite Es. pose proof (round4_near (y0 + snd c - offy g)). lra.
  - rewrite Et. pose proof (round4_near (y1 + snd c + offy g)). lra.
Qed.
