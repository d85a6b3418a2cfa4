From Coq Require Import ZArith QArith Qabs Qround List Bool Lia Lqa.
Import ListNotations.
From Verif Require Import Grid_Model AStar_Model AStar_Spec AStar_Proofs AStar_Proofs2 Grid_Proofs Grid_Proofs2.
Open Scope Z_scope.

Definition offered (g : grid) (p q : pos) : Prop := In q (get_neighbors g p).
Definition cell_of (g : grid) (z : Q * Q) : pos := move_to_gridpoint g (fst z) (snd z).

Lemma get_path_path g dc start goal wps : wf_grid g -> get_path g dc start goal = Ok wps ->
  exists cells, wps = map (waypoint g) cells /\
    walk (offered g) (cell_of g start) (cell_of g goal) cells /\ NoDup cells /\
    (forall p, In p (tl cells) -> open_cell g p).
Proof.
  intros W. unfold get_path. cbv zeta. destruct (search _ _) as [l|e] eqn:E; [|discriminate].
  intros H; inversion H; subst. clear H. exists l. split; auto.
  apply search_path in E; [|apply move_inside; auto]. simpl in E. destruct E as [Wk N].
  split; [exact Wk|]. split; auto. fold (cell_of g start) in Wk. fold (cell_of g goal) in Wk.
  assert (X : forall a b k, walk (offered g) a b k -> forall p, In p (tl k) -> open_cell g p).
  { clear. intros a b k Wk. induction Wk as [a|a b c l Hab Wk IH]; simpl; [tauto|].
    intros p Hp. inversion Wk; subst.
    - destruct Hp as [<-|[]]. apply (neighbors_king g a); auto.
    - simpl in Hp. destruct Hp as [<-|Hp]; [apply (neighbors_king g a); auto|apply IH; simpl; auto]. }
  eapply X; eauto.
Qed.

Lemma get_path_legal g dc start goal wps : wf_grid g -> (ch g == 1)%Q -> get_path g dc start goal = Ok wps ->
  exists cells, wps = map (waypoint g) cells /\ walk (legal g) (cell_of g start) (cell_of g goal) cells.
Proof.
  intros W C E. destruct (get_path_path _ _ _ _ _ W E) as (cells & A & B & _). exists cells. split; auto.
  eapply walk_mono; [|exact B]. intros p q H. apply neighbors_legal; auto.
Qed.

Lemma get_path_total g dc start goal : wf_grid g ->
  (exists wps, get_path g dc start goal = Ok wps) \/
  get_path g dc start goal = Err ENoNeighbors \/ get_path g dc start goal = Err ENoPath.
Proof.
  intros W. unfold get_path. cbv zeta. destruct (search _ _) as [l|e] eqn:E; [left; eauto|].
  right. apply search_errors in E; [|apply move_inside; auto]. destruct E as [->| ->]; auto.
Qed.

Lemma get_path_noneighbors g dc start goal : wf_grid g -> get_path g dc start goal = Err ENoNeighbors ->
  forall q, ~ offered g (cell_of g start) q.
Proof.
  intros W. unfold get_path. cbv zeta. destruct (search _ _) as [l|e] eqn:E; [discriminate|].
  intros H; inversion H; subst; clear H.
  pose proof (move_inside g (fst start) (snd start) W) as Hi. fold (cell_of g start) in *.
  destruct (in_dec (fun p q => match Bool.bool_dec (pos_eqb p q) true with
     | left y => left (proj1 (pos_eqb_eq p q) y)
     | right n => right (fun e => n (proj2 (pos_eqb_eq p q) e)) end) (cell_of g start) (occ g)) as [O|O].
  - unfold cell_of in *. destruct (move_blocked g (fst start) (snd start) W O) as [-> N]. exact N.
  - intros q. refine (noneighbors_start _ _ _ _ E q); simpl; [exact Hi|exact (conj Hi O)].
Qed.

Lemma get_path_nopath g dc start goal : wf_grid g -> get_path g dc start goal = Err ENoPath ->
  exists visited lastp, (forall q, reachable (offered g) (cell_of g start) q <-> In q (visited ++ [lastp])) /\
    ~ In (cell_of g goal) visited.
Proof.
  intros W. unfold get_path. cbv zeta. destruct (search _ _) as [l|e] eqn:E; [discriminate|].
  intros H; inversion H; subst; clear H.
  apply search_nopath in E; [|apply move_inside; auto]. exact E.
Qed.

Lemma get_path_unreachable g dc start goal : wf_grid g ->
  ~ reachable (offered g) (cell_of g start) (cell_of g goal) ->
  get_path g dc start goal = Err ENoNeighbors \/ get_path g dc start goal = Err ENoPath.
Proof.
  intros W N. destruct (get_path_total g dc start goal W) as [[wps E]|H]; auto.
  exfalso. destruct (get_path_path _ _ _ _ _ W E) as (cells & _ & B & _). apply N. exists cells; auto.
Qed.

(* physical length of a waypoint list is the length of its moves *)
Lemma get_path_quality g dc start goal wps eps : wf_grid g -> (1 <= eps)%Q -> (0 <= dc)%Q ->
  ((cw g + ch g <= eps * dc)%Q \/ forall p q, offered g p q -> ~ diagonal p q) ->
  get_path g dc start goal = Ok wps ->
  exists cells, wps = map (waypoint g) cells /\
  forall l, walk (offered g) (cell_of g start) (cell_of g goal) l ->
   (walk_len (move_len g dc) cells <= eps * walk_len (move_len g dc) l)%Q.
Proof.
  intros W He Hd Hc. unfold get_path. cbv zeta. destruct (search _ _) as [l|e] eqn:E; [|discriminate].
  intros H; inversion H; subst; clear H. exists l. split; auto.
  intros k Wk. refine (search_quality_grid _ _ _ eps _ _ He _ _ E k Wk); simpl; auto.
  apply move_inside; auto.
Qed.

(* with the true diagonal length the factor is at most the square root of two *)
Lemma sqrt2_factor a b d e : (0 < a -> 0 < b -> 0 < d -> d * d == a * a + b * b ->
  0 < e -> 2 <= e * e -> a + b <= e * d)%Q.
Proof.
  intros Ha Hb Hd E He E2. destruct (Qlt_le_dec (e * d) (a + b)) as [L|L]; auto. exfalso.
  assert (P1 : (0 < e * d)%Q) by nra.
  assert (Sq : forall u v, (0 < u -> u < v -> u * u < v * v)%Q) by (intros; nra).
  assert (P2 : ((e * d) * (e * d) < (a + b) * (a + b))%Q) by (apply Sq; auto).
  assert (P3 : ((e * d) * (e * d) == (e * e) * (d * d))%Q) by ring.
  assert (Sn : forall x, (0 <= x * x)%Q).
  { intros x. destruct (Qlt_le_dec x 0); clear - q; nra. }
  pose proof (Sn (a - b)%Q) as P4.
  assert (P5 : (0 < d * d)%Q) by nra.
  assert (P6 : (2 * (d * d) <= (e * e) * (d * d))%Q) by (apply Qmult_le_compat_r; lra).
  rewrite P3 in P2. rewrite E in *. clear - P2 P4 P6. nra.
Qed.

Lemma get_path_sqrt2 g dc start goal wps eps : wf_grid g -> (0 < dc)%Q ->
  (dc * dc == cw g * cw g + ch g * ch g)%Q -> (1 <= eps)%Q -> (2 <= eps * eps)%Q ->
  get_path g dc start goal = Ok wps ->
  exists cells, wps = map (waypoint g) cells /\
  forall l, walk (offered g) (cell_of g start) (cell_of g goal) l ->
   (walk_len (move_len g dc) cells <= eps * walk_len (move_len g dc) l)%Q.
Proof.
  intros W Hd E He E2. apply get_path_quality; auto; [lra|].
  left. apply sqrt2_factor; auto; [apply cw_pos; auto|apply ch_pos; auto|lra].
Qed.

Lemma snap_nearest_free g z p : wf_grid g -> ~ In (snap g (fst z) (snd z)) (occ g) -> inside g p ->
  cell_of g z = snap g (fst z) (snd z) /\
  (Qabs (fst z - fst (waypoint g (cell_of g z))) <= Qabs (fst z - fst (waypoint g p)))%Q /\
  (Qabs (snd z - snd (waypoint g (cell_of g z))) <= Qabs (snd z - snd (waypoint g p)))%Q.
Proof.
  intros W N [Hp1 Hp2]. unfold cell_of. rewrite move_stays by auto. split; auto.
  apply (snap_nearest g (fst z) (snd z) (fst p) (snd p)); auto.
Qed.

Lemma occupied_wide g obs o vs p l : wf_grid g -> (forall o, In o obs -> known_shape o) ->
  get_occupied_cells g obs = OccOk l -> In o obs -> stationary o = true -> obst_points g o = Some vs ->
  (exists a b, In a vs /\ In b vs /\ fst a + cw g < fst b)%Q ->
  (exists a b, In a vs /\ In b vs /\ snd a + ch g < snd b)%Q ->
  inside g p -> (exists z, in_hull_box vs z /\ in_cell g p z) -> In p l.
Proof.
  intros W K E Ho Hs Hv Hx Hy Hp Hz. destruct (occupied_spec g obs W K) as (l' & E' & _ & S).
  rewrite E in E'. inversion E'; subst l'. apply S. split; auto. exists o, vs. repeat split; auto.
  apply wide_detected; auto.
Qed.

Lemma occupied_sound g obs l p : wf_grid g -> (forall o, In o obs -> known_shape o) ->
  (forall o vs, In o obs -> obst_points g o = Some vs -> exists z, in_hull_box vs z) ->
  get_occupied_cells g obs = OccOk l -> In p l ->
  inside g p /\ exists o vs z, In o obs /\ stationary o = true /\ obst_points g o = Some vs /\
     in_hull_box vs z /\ in_cell g p z.
Proof.
  intros W K Hn E Hp. destruct (occupied_spec g obs W K) as (l' & E' & _ & S).
  rewrite E in E'. inversion E'; subst l'. apply S in Hp. destruct Hp as [Hi (o & vs & A & B & C & D)].
  split; auto. destruct (touches_overlap g vs p W (Hn o vs A C) D) as (z & Z1 & Z2).
  exists o, vs, z. auto.
Qed.
