(* Properties C15-C21: the A* global planner and its grid. *)
From Coq Require Import ZArith QArith Qabs Qround List Bool Lia Lqa.
Import ListNotations.
From Verif Require Import Grid_Model AStar_Model AStar_Spec AStar_Proofs AStar_Proofs2 Grid_Proofs Grid_Proofs2 Grid_Proofs3.
Open Scope Z_scope.

(* [offered g p q]: q is one of the cells Grid.get_neighbors returns for p.
   [cell_of g z]: the cell Grid.move_to_gridpoint returns for the point z. *)

(* example grid: 4 x 3 cells of 1 x 1 around the origin, one blocked cell *)
Definition gex : grid := mkG 4 3 4 3 0 0 0 0 [(1, 1)].
Example gex_wf : wf_grid gex. Proof. unfold wf_grid; simpl; repeat split; reflexivity || lia. Qed.

(* ---- C15 ---- *)
Theorem C15_path : forall g dc start goal wps, wf_grid g -> get_path g dc start goal = Ok wps ->
  exists cells, wps = map (waypoint g) cells /\
    walk (offered g) (cell_of g start) (cell_of g goal) cells /\ NoDup cells /\
    (forall p, In p (tl cells) -> open_cell g p).
Proof. exact get_path_path. Qed.
Example C15_ex : get_path gex (3 # 2) ((-3) # 2, (-1) # 1) ((3 # 2), (1 # 1)) <> Err ENoPath /\
  search (mkP gex (3 # 2) (3, 2)) (0, 0) = Ok [(0, 0); (1, 0); (2, 0); (3, 1); (3, 2)]
  /\ exists wps, get_path gex (3 # 2) ((-3) # 2, (-1) # 1) ((3 # 2), (1 # 1)) = Ok wps /\ length wps = 5%nat.
Proof. split; [vm_compute; discriminate|]. split; [vm_compute; reflexivity|]. eexists. vm_compute. split; reflexivity. Qed.
Print Assumptions C15_path.

Theorem C15_legal : forall g dc start goal wps, wf_grid g -> (ch g == 1)%Q ->
  get_path g dc start goal = Ok wps ->
  exists cells, wps = map (waypoint g) cells /\ walk (legal g) (cell_of g start) (cell_of g goal) cells.
Proof. exact get_path_legal. Qed.
Example C15_legal_ex : wf_grid gex /\ (ch gex == 1)%Q.
Proof. split; [apply gex_wf|reflexivity]. Qed.
Print Assumptions C15_legal.

(* ---- C16 ---- *)
(* the model runs at most n_cells[0]*n_cells[1]+1 iterations; neither the
   out-of-fuel value nor a Python error other than the two RuntimeErrors of the
   planner (in particular no attribute access on the None that an empty open
   list would give) can come out *)
Theorem C16_terminates : forall g dc start goal, wf_grid g ->
  (exists wps, get_path g dc start goal = Ok wps) \/
  get_path g dc start goal = Err ENoNeighbors \/ get_path g dc start goal = Err ENoPath.
Proof. exact get_path_total. Qed.
Example C16_ex : fuel_of gex = 13%nat /\ search (mkP gex (3 # 2) (1, 1)) (0, 0) = Err ENoPath.
Proof. vm_compute. auto. Qed.
Print Assumptions C16_terminates.

(* ---- C17 ---- *)
Theorem C17_no_neighbors : forall g dc start goal, wf_grid g ->
  get_path g dc start goal = Err ENoNeighbors -> forall q, ~ offered g (cell_of g start) q.
Proof. exact get_path_noneighbors. Qed.
Definition gwall : grid := mkG 3 3 3 3 0 0 0 0 [(1, 0); (1, 1); (0, 1)].
Example C17_no_neighbors_ex : wf_grid gwall /\ get_path gwall (3 # 2) ((-1) # 1, (-1) # 1) (1 # 1, 1 # 1) = Err ENoNeighbors.
Proof. split; [unfold wf_grid; simpl; repeat split; reflexivity || lia|vm_compute; reflexivity]. Qed.
Print Assumptions C17_no_neighbors.

(* 'There is no path' means the whole component of the start was visited and
   the goal was not among the visited cells, except possibly as the last one *)
Theorem C17_exhausted : forall g dc start goal, wf_grid g -> get_path g dc start goal = Err ENoPath ->
  exists visited lastp,
    (forall q, reachable (offered g) (cell_of g start) q <-> In q (visited ++ [lastp])) /\
    ~ In (cell_of g goal) visited.
Proof. exact get_path_nopath. Qed.
Definition gsplit : grid := mkG 3 2 3 2 0 0 0 0 [(1, 0); (1, 1)].
Example C17_exhausted_ex : wf_grid gsplit /\ get_path gsplit (3 # 2) ((-1) # 1, (-1) # 2) (1 # 1, 1 # 2) = Err ENoPath.
Proof. split; [unfold wf_grid; simpl; repeat split; reflexivity || lia|vm_compute; reflexivity]. Qed.
Print Assumptions C17_exhausted.

Theorem C17_unreachable_raises : forall g dc start goal, wf_grid g ->
  ~ reachable (offered g) (cell_of g start) (cell_of g goal) ->
  get_path g dc start goal = Err ENoNeighbors \/ get_path g dc start goal = Err ENoPath.
Proof. exact get_path_unreachable. Qed.
Example C17_unreachable_ex : ~ reachable (offered gsplit) (0, 0) (2, 0).
Proof.
  assert (X : forall a b l, walk (offered gsplit) a b l -> a = (0, 0) \/ a = (0, 1) -> b = (0, 0) \/ b = (0, 1)).
  { intros a b l W. induction W as [a|a b c l Hab W IH]; auto. intros [-> | ->]; apply IH;
    vm_compute in Hab; destruct Hab as [<-|[]]; auto. }
  intros [l W]. destruct (X _ _ _ W); auto; discriminate.
Qed.
Print Assumptions C17_unreachable_raises.

(* the goal is next to the start and still 'There is no path' is raised *)
Theorem C17_false_alarm_refuted : exists g dc start goal, wf_grid g /\
  offered g (cell_of g start) (cell_of g goal) /\ get_path g dc start goal = Err ENoPath.
Proof.
  exists (mkG 2 1 2 1 0 0 0 0 []), 2%Q, ((-1) # 2, 0%Q), (1 # 2, 0%Q).
  split; [unfold wf_grid; simpl; repeat split; reflexivity || lia|]. vm_compute. auto.
Qed.
Print Assumptions C17_false_alarm_refuted.

(* ---- C18 ---- *)
Theorem C18_legal : forall g p q, (ch g == 1)%Q \/ ~ down_left p q ->
  (offered g p q <-> legal g p q).
Proof. exact neighbors_legal. Qed.
Example C18_legal_ex : (ch gex == 1)%Q /\ legal gex (0, 0) (0, 1) /\ ~ offered gex (1, 0) (0, 1) /\ offered gex (2, 0) (3, 1).
Proof.
  split; [reflexivity|]. split; [|split].
  - split; [|split].
    + split; [discriminate|simpl; lia].
    + split; [unfold inside; simpl; lia|]. simpl. intros [H|[]]; discriminate.
    + intros [H _]. simpl in H. lia.
  - vm_compute. intuition discriminate.
  - vm_compute. tauto.
Qed.
Print Assumptions C18_legal.

Theorem C18_symmetric : forall g p q, open_cell g p -> legal g p q -> legal g q p.
Proof. exact legal_sym. Qed.
Example C18_symmetric_ex : open_cell gex (2, 0) /\ legal gex (2, 0) (3, 1).
Proof.
  split; [split; [unfold inside; simpl; lia|]; simpl; intros [H|[]]; discriminate|].
  apply C18_legal; [left; reflexivity|vm_compute; tauto].
Qed.
Print Assumptions C18_symmetric.

(* what the down-left move tests, for any cell height *)
Theorem C18_down_left : forall g x y,
  offered g (x, y) (x - 1, y - 1) <->
  open_cell g (x - 1, y - 1) /\ open_cell g (x - 1, y) /\ 0 <= x < nx g /\
  (0 <= inject_Z y - ch g)%Q /\ (inject_Z y - ch g < inject_Z (ny g))%Q /\
  ~ (exists y', In (x, y') (occ g) /\ (inject_Z y' == inject_Z y - ch g)%Q).
Proof. exact down_left_offered. Qed.
Example C18_down_left_ex : offered gex (3, 1) (2, 0) /\ ~ offered gex (2, 1) (1, 0).
Proof. split; vm_compute; intuition discriminate. Qed.
Print Assumptions C18_down_left.

(* cells of height 1/2: a blocked corner is cut *)
Theorem C18_corner_cut_refuted : exists g p q, wf_grid g /\ open_cell g p /\ offered g p q /\ ~ legal g p q.
Proof.
  exists (mkG 2 2 2 1 0 0 0 0 [(1, 0)]), (1, 1), (0, 0).
  split; [unfold wf_grid; simpl; repeat split; reflexivity || lia|]. split; [|split].
  - split; [unfold inside; simpl; lia|]. simpl. intros [H|[]]; discriminate.
  - vm_compute. tauto.
  - intros [_ [_ D]]. destruct D as [[_ D] _]; [split; simpl; lia|]. apply D. simpl. auto.
Qed.
Print Assumptions C18_corner_cut_refuted.

(* cells of height 2: a legal move is refused although its reverse is offered *)
Theorem C18_refused_refuted : exists g p q, wf_grid g /\ legal g p q /\ ~ offered g p q /\ offered g q p.
Proof.
  exists (mkG 2 2 2 4 0 0 0 0 []), (1, 1), (0, 0).
  split; [unfold wf_grid; simpl; repeat split; reflexivity || lia|]. split; [|split].
  - split; [split; [discriminate|simpl; lia]|]. unfold open_cell, inside; simpl. split; [lia|]. intros _; lia.
  - vm_compute. intuition discriminate.
  - vm_compute. tauto.
Qed.
Print Assumptions C18_refused_refuted.

(* ---- C19 ---- *)
Theorem C19_inside : forall g x y, wf_grid g -> inside g (move_to_gridpoint g x y).
Proof. exact move_inside. Qed.
Example C19_inside_ex : move_to_gridpoint gex 100 (-100) = (3, 0).
Proof. reflexivity. Qed.
Print Assumptions C19_inside.

Theorem C19_free : forall g x y, wf_grid g ->
  (exists q, (q = snap g x y \/ king (snap g x y) q) /\ open_cell g q) ->
  open_cell g (move_to_gridpoint g x y).
Proof. exact move_free. Qed.
Example C19_free_ex : snap gex ((-1) # 2) 0 = (1, 1) /\ move_to_gridpoint gex ((-1) # 2) 0 = (2, 1) /\ In (1, 1) (occ gex).
Proof. vm_compute. auto. Qed.
Print Assumptions C19_free.

Theorem C19_nearest : forall g z p, wf_grid g -> ~ In (snap g (fst z) (snd z)) (occ g) -> inside g p ->
  cell_of g z = snap g (fst z) (snd z) /\
  (Qabs (fst z - fst (waypoint g (cell_of g z))) <= Qabs (fst z - fst (waypoint g p)))%Q /\
  (Qabs (snd z - snd (waypoint g (cell_of g z))) <= Qabs (snd z - snd (waypoint g p)))%Q.
Proof. exact snap_nearest_free. Qed.
Example C19_nearest_ex : ~ In (snap gex (13 # 10) (7 # 10)) (occ gex) /\ inside gex (0, 2) /\ cell_of gex (13 # 10, 7 # 10) = (3, 2).
Proof. split; [vm_compute; intuition discriminate|]. split; [unfold inside; simpl; lia|reflexivity]. Qed.
Print Assumptions C19_nearest.

(* a blocked cell is only returned when it is walled in *)
Theorem C19_blocked : forall g x y, wf_grid g -> In (move_to_gridpoint g x y) (occ g) ->
  move_to_gridpoint g x y = snap g x y /\ forall q, ~ offered g (snap g x y) q.
Proof. exact move_blocked. Qed.
Example C19_blocked_ex : let g := mkG 2 1 2 1 0 0 0 0 [(0, 0); (1, 0)] in In (move_to_gridpoint g 0 0) (occ g).
Proof. vm_compute. auto. Qed.
Print Assumptions C19_blocked.

(* "select closest point which is not occupied" (390) is not what happens:
   with cells 2 wide and 1 high a diagonal cell at squared distance 5 is chosen
   although the free cell above is at squared distance 1 *)
Theorem C19_closest_refuted : exists g x y q, wf_grid g /\ open_cell g q /\
  let r := move_to_gridpoint g x y in
  let d2 := fun p => ((x - centre_x g (fst p)) * (x - centre_x g (fst p)) + (y - centre_y g (snd p)) * (y - centre_y g (snd p)))%Q in
  (d2 q < d2 r)%Q.
Proof.
  exists (mkG 3 3 6 3 0 0 0 0 [(1, 1)]), 0%Q, 0%Q, (1, 2).
  split; [unfold wf_grid; simpl; repeat split; reflexivity || lia|]. split; [|vm_compute; reflexivity].
  split; [unfold inside; simpl; lia|]. simpl. intros [H|[]]; discriminate.
Qed.
Print Assumptions C19_closest_refuted.

(* ---- C20 ---- *)
Theorem C20_admissible : forall pl l p, wf_grid (pgrid pl) ->
  walk (fun a b => king a b /\ ~ diagonal a b) p (pgoal pl) l ->
  (h_cost pl p <= walk_len (move_len (pgrid pl) (pdiag pl)) l)%Q.
Proof. exact manhattan_admissible. Qed.
Example C20_admissible_ex : walk (fun a b => king a b /\ ~ diagonal a b) (0, 0) (1, 1) [(0, 0); (1, 0); (1, 1)].
Proof. repeat (apply walk_next; [split; [split; [discriminate|simpl; lia]|unfold diagonal; simpl; lia]|]). constructor. Qed.
Print Assumptions C20_admissible.

(* general quality bound: eps = 1 gives optimality (no diagonal move on offer) *)
Theorem C20_quality : forall g dc start goal wps eps, wf_grid g -> (1 <= eps)%Q -> (0 <= dc)%Q ->
  ((cw g + ch g <= eps * dc)%Q \/ forall p q, offered g p q -> ~ diagonal p q) ->
  get_path g dc start goal = Ok wps ->
  exists cells, wps = map (waypoint g) cells /\
  forall l, walk (offered g) (cell_of g start) (cell_of g goal) l ->
   (walk_len (move_len g dc) cells <= eps * walk_len (move_len g dc) l)%Q.
Proof. exact get_path_quality. Qed.
Example C20_quality_ex : let g := mkG 3 1 3 1 0 0 0 0 [] in
  (forall p q, offered g p q -> ~ diagonal p q) /\ (exists w, get_path g 2 ((-1) # 1, 0%Q) (0%Q, 0%Q) = Ok w).
Proof.
  split; [|eexists; vm_compute; reflexivity].
  intros [x y] [a b] H [D1 D2]. simpl in D1, D2. apply neighbors_accessible in H.
  destruct H as [[K1 [K2 K3]] [[[O1 O2] _] A]]. simpl in *.
  assert (b = 0) by lia. subst b.
  assert (Ny : y = 1 \/ y = -1) by lia.
  assert (Nx : a = x - 1 \/ a = x + 1) by lia.
  destruct Nx as [-> | ->], Ny as [-> | ->]; revert A; zb; simpl; rewrite ?andb_true_iff, ?free_open; unfold open_cell, inside; simpl; try lia; intros; lia.
Qed.
Print Assumptions C20_quality.

(* with the true diagonal the path is never more than sqrt 2 times longer than
   any other path along offered moves (any rational eps with eps^2 >= 2) *)
Theorem C20_sqrt2 : forall g dc start goal wps eps, wf_grid g -> (0 < dc)%Q ->
  (dc * dc == cw g * cw g + ch g * ch g)%Q -> (1 <= eps)%Q -> (2 <= eps * eps)%Q ->
  get_path g dc start goal = Ok wps ->
  exists cells, wps = map (waypoint g) cells /\
  forall l, walk (offered g) (cell_of g start) (cell_of g goal) l ->
   (walk_len (move_len g dc) cells <= eps * walk_len (move_len g dc) l)%Q.
Proof. exact get_path_sqrt2. Qed.
Definition gsub : grid := mkG 5 5 (15 # 4) 5 0 0 0 0 [(0, 2); (1, 4); (3, 3); (4, 1)].
Example C20_sqrt2_ex : wf_grid gsub /\ (5 # 4) * (5 # 4) == cw gsub * cw gsub + ch gsub * ch gsub /\
  (exists w, get_path gsub (5 # 4) (3 # 2, 2%Q) ((-3) # 4, (-2)%Q) = Ok w) /\ (2 <= (3 # 2) * (3 # 2))%Q.
Proof.
  split; [unfold wf_grid; simpl; repeat split; reflexivity || lia|]. split; [reflexivity|].
  split; [eexists; vm_compute; reflexivity|vm_compute; discriminate].
Qed.
Print Assumptions C20_sqrt2.

(* but it is not always the shortest one: 23/4 against 21/4 *)
Theorem C20_optimal_refuted : exists g dc start goal cells l, wf_grid g /\ (ch g == 1)%Q /\ (0 < dc)%Q /\
  (dc * dc == cw g * cw g + ch g * ch g)%Q /\
  get_path g dc start goal = Ok (map (waypoint g) cells) /\
  walk (offered g) (cell_of g start) (cell_of g goal) cells /\
  walk (offered g) (cell_of g start) (cell_of g goal) l /\
  (walk_len (move_len g dc) l < walk_len (move_len g dc) cells)%Q.
Proof.
  destruct (search (mkP gsub (5 # 4) (1, 0)) (4, 4)) as [c|e] eqn:E; [|vm_compute in E; discriminate].
  exists gsub, (5 # 4), (3 # 2, 2%Q), ((-3) # 4, (-2)%Q), c, [(4, 4); (4, 3); (4, 2); (3, 2); (2, 1); (1, 0)].
  vm_compute in E. inversion E; subst c. clear E.
  split; [unfold wf_grid; simpl; repeat split; reflexivity || lia|].
  split; [reflexivity|]. split; [reflexivity|]. split; [reflexivity|].
  split; [vm_compute; reflexivity|].
  assert (E1 : cell_of gsub (3 # 2, 2%Q) = (4, 4)) by (vm_compute; reflexivity).
  assert (E2 : cell_of gsub ((-3) # 4, (-2)%Q) = (1, 0)) by (vm_compute; reflexivity).
  rewrite E1, E2.
  split; [repeat (apply walk_next; [vm_compute; tauto|]); constructor|].
  split; [repeat (apply walk_next; [vm_compute; tauto|]); constructor|].
  vm_compute. reflexivity.
Qed.
Print Assumptions C20_optimal_refuted.

(* ---- C21 ---- *)
Theorem C21_blocked_iff : forall g obs, wf_grid g -> (forall o, In o obs -> known_shape o) ->
  exists l, get_occupied_cells g obs = OccOk l /\ NoDup l /\
  forall p, In p l <-> inside g p /\ exists o vs, In o obs /\ stationary o = true /\
                         obst_points g o = Some vs /\ touches g vs p.
Proof. exact occupied_spec. Qed.
Definition oex : obst := mkO (OCircle (1 # 4)) (1 # 2, 0%Q) None.
Example C21_blocked_ex : known_shape oex /\ get_occupied_cells gex [oex] = OccOk [(2, 1)].
Proof. split; [exact I|vm_compute; reflexivity]. Qed.
Print Assumptions C21_blocked_iff.

Theorem C21_sound : forall g obs l p, wf_grid g -> (forall o, In o obs -> known_shape o) ->
  (forall o vs, In o obs -> obst_points g o = Some vs -> exists z, in_hull_box vs z) ->
  get_occupied_cells g obs = OccOk l -> In p l ->
  inside g p /\ exists o vs z, In o obs /\ stationary o = true /\ obst_points g o = Some vs /\
     in_hull_box vs z /\ in_cell g p z.
Proof. exact occupied_sound. Qed.
Example C21_sound_ex : exists vs, obst_points gex oex = Some vs /\ in_hull_box vs (1 # 2, 0%Q).
Proof.
  eexists. split; [reflexivity|]. split.
  - eexists _, _. split; [right; right; left; reflexivity|]. split; [left; reflexivity|]. split; vm_compute; reflexivity.
  - eexists _, _. split; [right; left; reflexivity|]. split; [left; reflexivity|]. split; vm_compute; reflexivity.
Qed.
Print Assumptions C21_sound.

Theorem C21_wide_detected : forall g obs o vs p l, wf_grid g -> (forall o, In o obs -> known_shape o) ->
  get_occupied_cells g obs = OccOk l -> In o obs -> stationary o = true -> obst_points g o = Some vs ->
  (exists a b, In a vs /\ In b vs /\ fst a + cw g < fst b)%Q ->
  (exists a b, In a vs /\ In b vs /\ snd a + ch g < snd b)%Q ->
  inside g p -> (exists z, in_hull_box vs z /\ in_cell g p z) -> In p l.
Proof. exact occupied_wide. Qed.
Definition obig : obst := mkO (ORect [(3#4); (3#4); ((-3)#4); ((-3)#4)] [(1#1); ((-1)#1); ((-1)#1); (1#1)]) (0%Q, 0%Q) None.
Example C21_wide_ex : known_shape obig /\ (exists vs, obst_points gex obig = Some vs /\
  (exists a b, In a vs /\ In b vs /\ fst a + cw gex < fst b)%Q /\ (exists a b, In a vs /\ In b vs /\ snd a + ch gex < snd b)%Q)
  /\ get_occupied_cells gex [obig] = OccOk [(1, 0); (1, 1); (1, 2); (2, 0); (2, 1); (2, 2)].
Proof.
  split; [split; [discriminate|reflexivity]|]. split; [|vm_compute; reflexivity].
  eexists. split; [reflexivity|]. split.
  - eexists _, _. split; [right; right; left; reflexivity|]. split; [left; reflexivity|]. vm_compute. reflexivity.
  - eexists _, _. split; [right; left; reflexivity|]. split; [left; reflexivity|]. vm_compute. reflexivity.
Qed.
Print Assumptions C21_wide_detected.

Theorem C21_circle_box : forall g r c z,
  let hx := (r + offx g)%Q in let hy := (r + offy g)%Q in let e := (1 # 20000)%Q in
  ((fst c - hx + e < fst z < fst c + hx - e)%Q /\ (snd c - hy + e < snd z < snd c + hy - e)%Q ->
   in_hull_box (round_vertices (circle_vertices g r c)) z) /\
  ((0 <= hx)%Q -> (0 <= hy)%Q -> in_hull_box (round_vertices (circle_vertices g r c)) z ->
   (fst c - hx - e < fst z < fst c + hx + e)%Q /\ (snd c - hy - e < snd z < snd c + hy + e)%Q).
Proof. exact circle_box. Qed.
Example C21_circle_box_ex : let z := (6 # 10, 1 # 10) in let e := (1 # 20000)%Q in
  ((1 # 2) - (1 # 4) + e < fst z < (1 # 2) + (1 # 4) - e)%Q.
Proof. split; vm_compute; reflexivity. Qed.
Print Assumptions C21_circle_box.

Theorem C21_rect_box : forall g vx vy c z x0 x1 y0 y1,
  (exists k, nth_error vx k = Some x0 /\ k < length vy)%nat -> (exists k, nth_error vx k = Some x1 /\ k < length vy)%nat ->
  (exists k, nth_error vy k = Some y0 /\ k < length vx)%nat -> (exists k, nth_error vy k = Some y1 /\ k < length vx)%nat ->
  (x0 == lmin vx)%Q -> (y0 == lmin vy)%Q -> ~ (x1 == lmin vx)%Q -> ~ (y1 == lmin vy)%Q ->
  (x0 + fst c - offx g + (1#20000) < fst z < x1 + fst c + offx g - (1#20000))%Q ->
  (y0 + snd c - offy g + (1#20000) < snd z < y1 + snd c + offy g - (1#20000))%Q ->
  in_hull_box (round_vertices (rect_vertices g vx vy c)) z.
Proof. exact rect_box. Qed.
Example C21_rect_box_ex : in_hull_box (round_vertices (rect_vertices gex [(3#4); (3#4); ((-3)#4); ((-3)#4)] [(1#1); ((-1)#1); ((-1)#1); (1#1)] (1%Q, 0%Q))) (1 # 3, 1 # 3).
Proof.
  apply (C21_rect_box gex _ _ _ _ ((-3)#4) (3#4) ((-1)#1) (1#1)).
  - exists 2%nat; simpl; split; [reflexivity|lia].
  - exists 0%nat; simpl; split; [reflexivity|lia].
  - exists 1%nat; simpl; split; [reflexivity|lia].
  - exists 0%nat; simpl; split; [reflexivity|lia].
  - reflexivity.
  - reflexivity.
  - vm_compute; discriminate.
  - vm_compute; discriminate.
  - split; vm_compute; reflexivity.
  - split; vm_compute; reflexivity.
Qed.
Print Assumptions C21_rect_box.

(* a wall narrower than a cell that crosses a column of cells is not seen at all *)
Theorem C21_thin_refuted : exists g o vs z, wf_grid g /\ known_shape o /\ stationary o = true /\
  obst_points g o = Some vs /\ in_hull_box vs z /\ in_cell g (1, 1) z /\
  get_occupied_cells g [o] = OccOk [].
Proof.
  exists gex, (mkO (ORect [(1#10); (1#10); ((-1)#10); ((-1)#10)] [(2#1); ((-2)#1); ((-2)#1); (2#1)]) ((-3)#4, 0%Q) None).
  eexists _, ((-3)#4, 0%Q).
  split; [apply gex_wf|]. split; [split; [discriminate|reflexivity]|]. split; [reflexivity|].
  split; [reflexivity|]. split; [|split].
  - split.
    + eexists _, _. split; [right; right; left; reflexivity|]. split; [left; reflexivity|]. split; vm_compute; reflexivity.
    + eexists _, _. split; [right; left; reflexivity|]. split; [left; reflexivity|]. split; vm_compute; reflexivity.
  - unfold in_cell. repeat split; vm_compute; reflexivity.
  - vm_compute. reflexivity.
Qed.
Print Assumptions C21_thin_refuted.

(* a stationary obstacle of another shape: the first one crashes the planner,
   a later one blocks the cells of the previous obstacle once more, i.e. none *)
Theorem C21_other_shape_refuted : exists g o, wf_grid g /\ stationary o = true /\
  get_occupied_cells g [o] = OccUnbound /\ get_occupied_cells g [oex; o] = get_occupied_cells g [oex].
Proof.
  exists gex, (mkO OOther (0%Q, 0%Q) None). split; [apply gex_wf|]. split; [reflexivity|]. split; vm_compute; reflexivity.
Qed.
Print Assumptions C21_other_shape_refuted.
