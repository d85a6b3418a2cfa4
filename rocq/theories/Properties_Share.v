(** Shared vectors, formation error, groups and prediction of distributed problems (C190-C194). *)
From Coq Require Import Reals QArith ZArith String List Bool Arith Lia Lra Permutation.
From Verif Require Import Spline_Model Spline_Spec Splop_Model Splop_Spec Shift_Model Shift_Spec
  Shift_Proofs Shift_Proofs2 Shift_Proofs5 Shift_Proofs8 Shift_Proofs9 Vehicle_Model Share_Model Share_Spec Share_Proofs Share_Proofs2 Share_Proofs3 Share_Proofs4.
From Verif Require Timing_Model Properties_Shift.
Import ListNotations.
Local Open Scope list_scope.
Local Open Scope nat_scope.
Local Notation length := List.length.

(* two shared variables of a neighbour, all of a spline and two entries *)
Definition two_shared : shared :=
  [(["admm1"; "vehicle1"; "splines0"], [0; 1; 2; 3]); (["admm1"; "vehicle1"; "t"], [0; 1])]%string.
Definition two_values : values :=
  [(["admm1"; "vehicle1"; "splines0"], [1; 2; 3; 4]%R); (["admm1"; "vehicle1"; "t"], [5; 6]%R)]%string.
Lemma two_nodup : NoDup (map fst two_shared).
Proof. repeat constructor; cbn; intros F; repeat (destruct F as [F|F]; try discriminate F); exact F. Qed.
Lemma two_matches : matches two_shared two_values. Proof. split; reflexivity. Qed.
Lemma two_levelled : levelled two_values.
Proof. do 4 eexists. split; [reflexivity|]. split; [reflexivity|]. left. split; [reflexivity|]. right. reflexivity. Qed.
(* a transformation that negates the coefficients *)
Definition neg (v : list R) : list R := map Ropp v.
Lemma neg_works : forall n w, length w = n -> Some (neg w) = Some (neg w) /\ length (neg w) = n.
Proof. intros n w L. split; [reflexivity|]. unfold neg. rewrite map_length. exact L. Qed.
Definition two_spl (p : path) : option (nat * (list R -> option (list R))) :=
  if path_eqb p ["admm1"; "vehicle1"; "splines0"]%string then Some (2, fun v => Some (neg v)) else None.
Definition two_after : values :=
  [(["admm1"; "vehicle1"; "splines0"], [-(1); -(2); -(3); -(4)]%R); (["admm1"; "vehicle1"; "t"], [5; 6]%R)]%string.
Lemma two_done : all_done two_spl two_shared two_values two_after.
Proof. repeat split. Qed.
(* two vehicles on either side of their centre, which moves *)
Definition side (x : R) : car := mkCar [[0]; [1]]%R [[x]; [1 + x]]%R [x] [0; 1]%R.
Definition sides : list car := [side 1; side (-1)]%R.
Lemma sides_proper : proper_fleet 2 1 sides.
Proof. split; [discriminate|]. repeat constructor; destruct k as [|[|k]]; try reflexivity; lia. Qed.
Lemma sides_norm : Forall (fun c => 0 < norm (config c))%R sides.
Proof. repeat constructor; unfold norm; cbn; apply sqrt_lt_R0; lra. Qed.
Lemma sides_from : Forall (from_config 2 1) sides.
Proof. repeat constructor; intros k l Hk Hl; destruct k as [|[|k]]; destruct l as [|l]; try lia; cbn; lra. Qed.
Lemma sides_in : in_formation 2 1 sides.
Proof.
  exists (fun k _ => INR k). intros c k l [<-|[<-|[]]] Hk Hl; destruct k as [|[|k]]; destruct l as [|l]; try lia; cbn; lra.
Qed.
Lemma sides_centred : centred 1 sides.
Proof. intros l Hl. destruct l; [unfold first_step, end_time; cbn; lra|lia]. Qed.
(* five vehicles of two classes *)
Definition kinds (i : nat) : string := (if Nat.even i then "Holonomic" else "Dubins")%string.
Definition numbers (i : nat) : nat := if i <? 2 then 2 else 1.

(* a structured vector becomes a dictionary and the same vector again *)
Theorem C190_there : forall q v d, NoDup (map fst q) -> length v = size q -> struct2dict q v = Some d -> levelled d ->
  dict2struct q d = Some v /\ matches q d.
Proof. exact there_and_back. Qed.
Example C190_there_ex : dict2struct two_shared two_values = Some [1; 2; 3; 4; 5; 6]%R.
Proof. apply (C190_there two_shared [1; 2; 3; 4; 5; 6]%R two_values two_nodup eq_refl); [|exact two_levelled]. apply (struct_to_dict _ two_values two_nodup); [discriminate|exact two_matches]. Qed.
Print Assumptions C190_there.

(* a dictionary becomes a structured vector and the same dictionary again *)
Theorem C190_back : forall q d v, NoDup (map fst q) -> matches q d -> dict2struct q d = Some v -> struct2dict q v = Some d.
Proof. exact back_and_there. Qed.
Example C190_back_ex : struct2dict two_shared [1; 2; 3; 4; 5; 6]%R = Some two_values.
Proof. apply (C190_back _ two_values _ two_nodup two_matches). apply (dict_to_struct _ _ two_nodup two_matches two_levelled). Qed.
Print Assumptions C190_back.

(* the vector holds the values one after the other, in the order of the structure *)
Theorem C190_laid_out : forall q d, NoDup (map fst q) -> matches q d -> levelled d -> dict2struct q d = Some (laid_out d).
Proof. exact dict_to_struct. Qed.
Example C190_laid_out_ex : dict2struct two_shared two_values = Some (laid_out two_values).
Proof. exact (C190_laid_out _ _ two_nodup two_matches two_levelled). Qed.
Print Assumptions C190_laid_out.

(* entry i of a shared variable: index n counts down the columns of the variable, one column per spline *)
Theorem C190_entry : forall cols m ind i x, i < length ind -> nth i ind 0 < cols * length m ->
  nth i (picked cols m ind) x = nth (nth i ind 0 / length m) (nth (nth i ind 0 mod length m) m []) 0%R.
Proof. exact picked_entry. Qed.
Example C190_entry_ex : nth 1 (picked 2 [[1; 4]; [2; 5]; [3; 6]]%R [1; 4]) 0%R = 5%R.
Proof. rewrite C190_entry; [reflexivity|cbn; lia|cbn; lia]. Qed.
Print Assumptions C190_entry.

(* all indices: block j holds the coefficients of spline j *)
Theorem C190_spline : forall cols m j, j < cols -> block (length m) j (picked cols m (seq 0 (cols * length m))) = map (fun row => nth j row 0%R) m.
Proof. exact picked_spline. Qed.
Example C190_spline_ex : block 3 1 (picked 2 [[1; 4]; [2; 5]; [3; 6]]%R (seq 0 6)) = [4; 5; 6]%R.
Proof. apply (C190_spline 2 [[1; 4]; [2; 5]; [3; 6]]%R 1). lia. Qed.
Print Assumptions C190_spline.

(* without shared variables both raise *)
Theorem C190_empty : forall v, struct2dict [] v = None /\ dict2struct [] [] = None.
Proof. exact empty_raises. Qed.
Example C190_empty_ex : struct2dict [] [] = None. Proof. apply C190_empty. Qed.
Print Assumptions C190_empty.

(* a child whose label contains dd is taken for a neighbour and raises *)
Theorem C190_label_refuted : exists q v d, NoDup (map fst q) /\ length v = size q /\ q <> [] /\ (forall p, In p (map fst q) -> length p = 2) /\
  struct2dict q v = Some d /\ dict2struct q d = None.
Proof. exact odd_label. Qed.
Print Assumptions C190_label_refuted.

(* every spline variable is transformed and the others are kept *)
Theorem C191_all : forall spl q d d', NoDup (map fst q) -> matches q d -> (transform spl q d = Some d' <-> all_done spl q d d').
Proof. exact transform_all. Qed.
Example C191_all_ex : transform two_spl two_shared two_values = Some two_after.
Proof. apply (C191_all two_spl two_shared two_values two_after two_nodup two_matches). exact two_done. Qed.
Print Assumptions C191_all.

(* the same on structured vectors *)
Theorem C191_vector : forall spl q d v', NoDup (map fst q) -> matches q d -> levelled d ->
  (transform_struct spl q (laid_out d) = Some v' <-> exists d', all_done spl q d d' /\ v' = laid_out d').
Proof. exact transform_struct_all. Qed.
Example C191_vector_ex : transform_struct two_spl two_shared [1; 2; 3; 4; 5; 6]%R = Some (laid_out two_after).
Proof. apply (C191_vector two_spl two_shared two_values (laid_out two_after) two_nodup two_matches two_levelled). exists two_after. split; [exact two_done|reflexivity]. Qed.
Print Assumptions C191_vector.

(* consecutive indices: exactly the splines with all coefficients among them are transformed *)
Theorem C191_consecutive : forall tf f n a m v, 0 < n -> length v = m ->
  (forall w, length w = n -> tf w = Some (f w) /\ length (f w) = n) ->
  exists v', transform_leaf tf n (seq a m) v = Some v' /\ length v' = m /\
  (forall l i, l < n -> complete n a m l -> i < n -> nth (l * n - a + i) v' 0%R = nth i (f (firstn n (skipn (l * n - a) v))) 0%R) /\
  (forall i, (forall l, l < n -> complete n a m l -> ~ (l * n <= a + i < l * n + n)) -> nth i v' 0%R = nth i v 0%R).
Proof. exact leaf_consecutive. Qed.
Example C191_consecutive_ex : exists v', transform_leaf (fun v => Some (neg v)) 2 (seq 1 3) [7; 8; 9]%R = Some v' /\ nth 0 v' 0%R = 7%R /\ nth 2 v' 0%R = (- (9))%R.
Proof.
  destruct (C191_consecutive (fun v => Some (neg v)) neg 2 1 3 [7; 8; 9]%R ltac:(lia) eq_refl (neg_works 2)) as (v' & E & _ & A & B).
  exists v'. split; [exact E|]. split.
  - rewrite B; [reflexivity|]. intros l Hl (C1 & C2) (D1 & D2). lia.
  - apply (A 1 1); unfold complete; lia.
Qed.
Print Assumptions C191_consecutive.

(* all indices: every spline is transformed *)
Theorem C191_blocks : forall tf f n k v, 0 < n -> k <= n -> length v = k * n -> (forall w, length w = n -> tf w = Some (f w) /\ length (f w) = n) ->
  exists v', transform_leaf tf n (seq 0 (k * n)) v = Some v' /\ length v' = k * n /\ forall j, j < k -> block n j v' = f (block n j v).
Proof. exact leaf_blocks. Qed.
Example C191_blocks_ex : exists v', transform_leaf (fun v => Some (neg v)) 2 (seq 0 4) [7; 8; 9; 6]%R = Some v' /\ block 2 1 v' = [- (9); - (6)]%R.
Proof.
  destruct (C191_blocks (fun v => Some (neg v)) neg 2 2 [7; 8; 9; 6]%R ltac:(lia) ltac:(lia) eq_refl (neg_works 2)) as (v' & E & _ & A).
  exists v'. split; [exact E|]. apply (A 1). lia.
Qed.
Print Assumptions C191_blocks.

(* shifting over a knot: the new splines are the old ones one knot later *)
Theorem C191_over_knot : forall d K h tol k v w, (0 < h)%R -> 2 <= K -> 1 <= d -> d <= K -> (0 <= tol)%R -> k <= K + d -> length v = k * (K + d) ->
  transform_leaf (fun c => shift_over_knot tol c (equidistant d K h)) (K + d) (seq 0 (k * (K + d))) v = Some w ->
  forall j x, j < k -> (0 <= x <= INR (K - 1) * h)%R ->
  (Rabs (call (mkS (equidistant d K h) (block (K + d) j w)) x - call (mkS (equidistant d K h) (block (K + d) j v)) (x + h))
   <= tol * size_of (block (K + d) j v))%R.
Proof. exact shared_over_knot. Qed.
Example C191_over_knot_ex : exists w, transform_leaf (fun c => shift_over_knot 0 c (equidistant 2 3 1)) (3 + 2) (seq 0 (1 * (3 + 2))) [1; 4; 2; 0; 3]%R = Some w /\
  (Rabs (call (mkS (equidistant 2 3 1) (block (3 + 2) 0 w)) 1 - call (mkS (equidistant 2 3 1) (block (3 + 2) 0 [1; 4; 2; 0; 3])) (1 + 1))
   <= 0 * size_of (block (3 + 2) 0 [1; 4; 2; 0; 3]))%R.
Proof.
  destruct (shift_equidistant_works 2 3 1 ltac:(lra) ltac:(lia) ltac:(lia) ltac:(lia) 0%R [1; 4; 2; 0; 3]%R) as (u & U).
  assert (L : length u = 5) by (apply (shift_equidistant 2 3 1 ltac:(lra) ltac:(lia) ltac:(lia) ltac:(lia) 0%R [1; 4; 2; 0; 3]%R u ltac:(lra) eq_refl U)).
  assert (E : transform_leaf (fun c => shift_over_knot 0 c (equidistant 2 3 1)) (3 + 2) (seq 0 (1 * (3 + 2))) [1; 4; 2; 0; 3]%R = Some u).
  { unfold transform_leaf. cbn [Nat.add Nat.mul seq fold_left spline_step forallb existsb Nat.eqb orb andb Nat.sub hd firstn skipn length Nat.leb].
    rewrite U, L. cbn [Nat.eqb app]. rewrite app_nil_r. reflexivity. }
  exists u. split; [exact E|]. apply (C191_over_knot 2 3 1 0 1 [1; 4; 2; 0; 3] u)%R; try lra; try lia; try reflexivity; [exact E|cbn; lra].
Qed.
Print Assumptions C191_over_knot.

(* shifting the first knots: the same functions on the rest of the interval *)
Theorem C191_forward : forall b t k v, well_formed b -> in_first b t -> 0 < blen b -> k <= blen b -> length v = k * blen b ->
  exists w, transform_leaf (fun c => Some (shift_knot1_fwd c b t)) (blen b) (seq 0 (k * blen b)) v = Some w /\
  forall j x, j < k -> in_domain b x -> (t <= x)%R ->
  call (mkS (first_moved b t) (block (blen b) j w)) x = call (mkS b (block (blen b) j v)) x.
Proof. exact shared_forward. Qed.
Example C191_forward_ex : exists w, transform_leaf (fun c => Some (shift_knot1_fwd c Properties_Shift.even3 (1 / 2))) 5 (seq 0 10) [1; 4; 2; 0; 3; 1; 1; 5; 2; 0]%R = Some w /\
  call (mkS (first_moved Properties_Shift.even3 (1 / 2)) (block 5 1 w)) 2 = call (mkS Properties_Shift.even3 (block 5 1 [1; 4; 2; 0; 3; 1; 1; 5; 2; 0]%R)) 2.
Proof.
  destruct (C191_forward Properties_Shift.even3 (1 / 2) 2 [1; 4; 2; 0; 3; 1; 1; 5; 2; 0]%R Properties_Shift.even3_wf Properties_Shift.even3_first) as (w & E & A);
    try (vm_compute; lia); try reflexivity.
  exists w. split; [exact E|]. apply (A 1 2%R); [lia|apply Properties_Shift.even3_in; lra|lra].
Qed.
Print Assumptions C191_forward.

(* and back again: the same coefficients *)
Theorem C191_back : forall b t k v w u, well_formed b -> in_first b t -> 0 < blen b -> k <= blen b -> length v = k * blen b ->
  transform_leaf (fun c => Some (shift_knot1_fwd c b t)) (blen b) (seq 0 (k * blen b)) v = Some w ->
  transform_leaf (fun c => shift_knot1_bwd c b t) (blen b) (seq 0 (k * blen b)) w = Some u -> u = v.
Proof. exact shared_back. Qed.
Example C191_back_ex : forall w u, transform_leaf (fun c => Some (shift_knot1_fwd c Properties_Shift.even3 (1 / 2))) 5 (seq 0 10) [1; 4; 2; 0; 3; 1; 1; 5; 2; 0]%R = Some w ->
  transform_leaf (fun c => shift_knot1_bwd c Properties_Shift.even3 (1 / 2)) 5 (seq 0 10) w = Some u -> u = [1; 4; 2; 0; 3; 1; 1; 5; 2; 0]%R.
Proof.
  intros w u E F. apply (C191_back Properties_Shift.even3 (1 / 2) 2 _ w u Properties_Shift.even3_wf Properties_Shift.even3_first); try (vm_compute; lia); try reflexivity; assumption.
Qed.
Print Assumptions C191_back.

(* indices with a gap: other coefficients are transformed *)
Theorem C191_gap_refuted : exists tf n ind v v', (forall w, length w = n -> exists u, tf w = Some u /\ length u = n) /\ length ind = length v /\
  ind = [0; 2; 3; 4] /\ n = 2 /\ transform_leaf tf n ind v = Some v' /\
  firstn 2 (skipn 1 v') <> (match tf (firstn 2 (skipn 1 v)) with Some u => u | None => [] end) /\ firstn 2 (skipn 1 v') <> firstn 2 (skipn 1 v).
Proof. exact gap. Qed.
Print Assumptions C191_gap_refuted.

(* a variable with more splines than coefficients per spline: the last ones are not transformed *)
Theorem C191_many_refuted : exists tf n k v v', (forall w, length w = n -> exists u, tf w = Some u /\ length u = n) /\ length v = k * n /\ n = 2 /\ k = 3 /\
  transform_leaf tf n (seq 0 (k * n)) v = Some v' /\ tf (block n 2 v) <> Some (block n 2 v').
Proof. exact too_many. Qed.
Print Assumptions C191_many_refuted.

Local Open Scope R_scope.
(* two samples are enough *)
Theorem C192_defined : forall n dim cs, proper_fleet n dim cs -> (2 <= n)%nat -> exists e, interaction_error cs = Some e.
Proof. exact formation_defined. Qed.
Example C192_defined_ex : exists e, interaction_error sides = Some e.
Proof. apply (C192_defined 2 1 sides sides_proper). lia. Qed.
Print Assumptions C192_defined.

(* never negative *)
Theorem C192_nonneg : forall n dim cs e, proper_fleet n dim cs -> interaction_error cs = Some e ->
  0 <= first_step cs -> 0 <= end_time cs -> 0 <= e.
Proof. exact formation_nonneg. Qed.
Example C192_nonneg_ex : forall e, interaction_error sides = Some e -> (0 <= e)%R.
Proof. intros e E. apply (C192_nonneg 2 1 sides e sides_proper E); unfold first_step, end_time; cbn; lra. Qed.
Print Assumptions C192_nonneg.

(* zero exactly if all vehicles see the centre where the mean of the positions is, at every sample *)
Theorem C192_zero : forall n dim cs e, proper_fleet n dim cs -> interaction_error cs = Some e ->
  0 < first_step cs -> 0 < end_time cs -> Forall (fun c => 0 < norm (config c)) cs ->
  (e = 0 <-> forall c k l, In c cs -> (k < n)%nat -> (l < dim)%nat -> nth l (nth k (centre c) []) 0 = middle cs k l).
Proof. exact formation_zero. Qed.
Example C192_zero_ex : interaction_error sides = Some 0%R.
Proof.
  destruct (error_defined 2 1 sides sides_proper ltac:(lia)) as (e & E). rewrite E. f_equal.
  apply (C192_zero 2 1 sides e sides_proper E); [unfold first_step, end_time; cbn; lra|unfold first_step, end_time; cbn; lra|exact sides_norm|].
  intros c k l [<-|[<-|[]]] Hk Hl; destruct k as [|[|k]]; destruct l as [|l]; try lia; unfold middle; cbn; lra.
Qed.
Print Assumptions C192_zero.

(* at most the largest deviation relative to the distance in the configuration *)
Theorem C192_bound : forall n dim cs e d, proper_fleet n dim cs -> interaction_error cs = Some e ->
  0 < first_step cs -> INR (n - 1) * first_step cs <= end_time cs -> 0 <= d ->
  (forall c k, In c cs -> (k < n)%nat -> norm (vsub (map (middle cs k) (seq 0 dim)) (nth k (centre c) [])) <= d * norm (config c)) -> e <= d.
Proof. exact formation_bound. Qed.
Example C192_bound_ex : forall e, interaction_error sides = Some e -> (e <= 1 / 2)%R.
Proof.
  intros e E. apply (C192_bound 2 1 sides e (1 / 2)%R sides_proper E); [unfold first_step, end_time; cbn; lra|unfold first_step, end_time; cbn; lra|lra|].
  intros c k I Hk. replace (norm (vsub (map (middle sides k) (seq 0 1)) (nth k (centre c) []))) with 0%R.
  { pose proof (norm_nonneg (config c)). nra. }
  symmetry. apply norm_zero. destruct I as [<-|[<-|[]]]; destruct k as [|[|k]]; try lia; repeat constructor; unfold middle; cbn; lra.
Qed.
Print Assumptions C192_bound.

(* holonomic signals: zero exactly if the vehicles are in formation and the configuration is centred *)
Theorem C192_formation : forall n dim cs e, proper_fleet n dim cs -> interaction_error cs = Some e ->
  0 < first_step cs -> 0 < end_time cs -> Forall (fun c => 0 < norm (config c)) cs ->
  Forall (from_config n dim) cs -> (e = 0 <-> in_formation n dim cs /\ centred dim cs).
Proof. exact formation_perfect. Qed.
Example C192_formation_ex : interaction_error sides = Some 0%R.
Proof.
  destruct (error_defined 2 1 sides sides_proper ltac:(lia)) as (e & E). rewrite E. f_equal.
  apply (C192_formation 2 1 sides e sides_proper E); [unfold first_step, end_time; cbn; lra|unfold first_step, end_time; cbn; lra|exact sides_norm|exact sides_from|exact (conj sides_in sides_centred)].
Qed.
Print Assumptions C192_formation.

(* a perfect formation around a point aside has an error *)
Theorem C192_off_centre_refuted : exists cs e, proper_fleet 2 1 cs /\ Forall (fun c => 0 < norm (config c)) cs /\ Forall (from_config 2 1) cs /\
  in_formation 2 1 cs /\ interaction_error cs = Some e /\ 0 < e.
Proof. exact off_centre. Qed.
Print Assumptions C192_off_centre_refuted.

Local Open Scope nat_scope.
(* every updater is in exactly one group *)
Theorem C193_partition : forall kind nghbs N, Permutation (flat_map snd (builds kind nghbs N)) (seq 0 N).
Proof. exact builds_partition. Qed.
Example C193_partition_ex : Permutation (flat_map snd (builds kinds numbers 5)) [0; 1; 2; 3; 4].
Proof. apply C193_partition. Qed.
Print Assumptions C193_partition.

(* the updaters of a group are alike *)
Theorem C193_alike : forall kind nghbs N t r us, In (t, r, us) (builds kind nghbs N) ->
  us <> [] /\ forall u, In u us -> kind u = t /\ nghbs u = r.
Proof. exact builds_alike. Qed.
Example C193_alike_ex : In ("Holonomic"%string, 1, [2; 4]) (builds kinds numbers 5) /\ kinds 4 = "Holonomic"%string.
Proof. assert (I : In ("Holonomic"%string, 1, [2; 4]) (builds kinds numbers 5)) by (vm_compute; auto). split; [exact I|]. apply (C193_alike _ _ _ _ _ _ I). right. left. reflexivity. Qed.
Print Assumptions C193_alike.

(* different groups differ in class or number of neighbours *)
Theorem C193_distinct : forall kind nghbs N i j, i < j < length (builds kind nghbs N) ->
  fst (nth i (builds kind nghbs N) (EmptyString, 0, [])) <> fst (nth j (builds kind nghbs N) (EmptyString, 0, [])).
Proof. exact builds_distinct. Qed.
Example C193_distinct_ex : fst (nth 0 (builds kinds numbers 5) (EmptyString, 0, [])) <> fst (nth 1 (builds kinds numbers 5) (EmptyString, 0, [])).
Proof. apply C193_distinct. vm_compute. lia. Qed.
Print Assumptions C193_distinct.

(* every updater uses the problems built by one like it *)
Theorem C193_builder : forall kind nghbs N u, u < N -> exists x, builder kind nghbs N u = Some x /\ x < N /\ kind x = kind u /\ nghbs x = nghbs u.
Proof. exact builder_alike. Qed.
Example C193_builder_ex : exists x, builder kinds numbers 5 4 = Some x /\ x < 5 /\ kinds x = kinds 4 /\ numbers x = numbers 4.
Proof. apply C193_builder. lia. Qed.
Print Assumptions C193_builder.

(* what the vehicle of problem k gets: its state, the delay in the place of the input, no delay, enforced only at the start *)
Theorem C194_arguments : forall (S I : Type) starts now (states : option (list (option S))) (inputs : option (list (option I))) delay es ei k s,
  nth_error starts k = Some s ->
  match states with
  | None => nth_error (dist_predict starts now states inputs delay es ei) k = Some (VArgs None (inr delay) 0 (Qeq_bool now s) false)
  | Some l => match nth_error l k with
              | Some x => nth_error (dist_predict starts now states inputs delay es ei) k = Some (VArgs x (inr delay) 0 (Qeq_bool now s) false)
              | None => nth_error (dist_predict starts now states inputs delay es ei) k = None
              end
  end.
Proof. exact dist_arguments. Qed.
Example C194_arguments_ex : nth_error (dist_predict (I := nat) [0; 0]%Q 0%Q (Some [Some 7; None]) None 3%Z true true) 1 = Some (VArgs None (inr 3%Z) 0%Z true false).
Proof. exact (C194_arguments nat nat [0; 0]%Q 0%Q (Some [Some 7; None]) None 3%Z true true 1 0%Q eq_refl). Qed.
Print Assumptions C194_arguments.

(* an ideal prediction takes the column of the predict time whatever the delay *)
Theorem C194_column : forall (S I : Type) starts now (states : option (list (option S))) (inputs : option (list (option I))) delay es ei p h a,
  In a (dist_predict starts now states inputs delay es ei) -> predicted_column p h a = Timing_Model.n_samp p h.
Proof. exact dist_column. Qed.
Example C194_column_ex : forall a, In a (dist_predict (S := nat) (I := nat) [0; 0]%Q 1%Q None None 3%Z true true) -> predicted_column 1%Q (1 # 10)%Q a = 10%Z.
Proof. intros a I. exact (C194_column nat nat _ _ _ _ _ _ _ 1%Q (1 # 10)%Q a I). Qed.
Print Assumptions C194_column.

(* the delay and the flags do not reach the vehicles *)
Theorem C194_delay_refuted : exists (starts : list Q) now (states : option (list (option nat))) delay p h,
  delay <> 0%Z /\ forall a, In a (dist_predict (I := nat) starts now states None delay true false) ->
  predicted_column p h a <> predicted_column p h (predict_one (I := nat) 0 now (v_state a) (inl None) delay true false) /\ v_enforce_state a = false.
Proof. exact delay_lost. Qed.
Print Assumptions C194_delay_refuted.
