(** Concatenation of segments into the trajectory a vehicle stores (C85). *)
From Coq Require Import Reals List Arith ZArith Lra Lia.
From Verif Require Import Spline_Model Spline_Spec Splop_Spec Splop_Proofs4 Obst_Model
  Multi_Model Multi_Spec Multi_Proofs2 Concat_Model Concat_Spec
  Concat_Proofs4 Concat_Proofs6 Concat_Proofs7 Concat_Proofs8.
Import ListNotations.
Local Open Scope R_scope.

Lemma times12 : Forall (fun T => 0 < T) [1; 2].
Proof. constructor; [lra|]. constructor; [lra|constructor]. Qed.

(* m knots kept at every joint, 1 <= m <= p: the one stored spline and all its derivatives are those of the segments travelled one after the other, provided the segments meet up to derivative p-m and no evaluation site is a joint *)
Theorem C85_smooth : forall p k n segs Ts m rs i,
  Forall (fun sg => length sg = k /\ Forall (proper p) sg) segs -> Forall (fun T => 0 < T) Ts ->
  (2 <= length segs)%nat -> (i < k)%nat ->
  used_insert n segs Ts = Some (Z.of_nat m) -> (1 <= m <= p)%nat ->
  meets (p + 1 - m) (component i segs Ts) -> clear_segments p m (component i segs Ts) ->
  concat_splines segs Ts n = Some rs ->
  let r := nth i rs no_spline in
  length rs = k /\ clamped_on (sbasis r) 0 (duration (component i segs Ts)) /\ sized r /\
  degree (sbasis r) = p /\
  forall d x, (d <= p)%nat -> 0 <= x <= duration (component i segs Ts) ->
    call (derivative r d) x = travelled (component i segs Ts) d x.
Proof. exact concat_smooth. Qed.
Example C85_smooth_ex : exists rs, concat_splines [seg_a; seg_b] [1; 2] (Some 1%Z) = Some rs /\
  call (derivative (nth 0 rs no_spline) 1) 3 = 2.
Proof.
  destruct stored_exists as [rs E].
  assert (M : meets (2 + 1 - 1) (component 0 [seg_a; seg_b] [1; 2])).
  { destruct (quad_in_seconds 0 0 1 1 ltac:(lra)) as (_ & A0 & _ & A1 & _ & _).
    destruct (quad_in_seconds 1 3 5 2 ltac:(lra)) as (B0 & _ & B1 & _ & _ & _).
    unfold component, seg_a, seg_b. cbn [map combine nth meets]. split; [|exact I].
    intros d Hd. destruct d as [|[|d]]; [rewrite A0, B0; ring|rewrite A1, B1; field|lia]. }
  assert (CL : clear_segments 2 1 (component 0 [seg_a; seg_b] [1; 2])).
  { apply quadratic_segments_clear. apply (component_proper 2 1); [|apply times12|lia].
    apply (regular_proper _ _ _ segs_regular). }
  destruct (C85_smooth 2 1 (Some 1%Z) [seg_a; seg_b] [1; 2] 1 rs 0 (regular_proper _ _ _ segs_regular) times12
     ltac:(simpl; lia) ltac:(lia) eq_refl ltac:(lia) M CL E) as (_ & _ & _ & _ & V).
  exists rs. split; [exact E|]. rewrite V; [|lia|rewrite segs_duration; lra].
  unfold component, seg_a, seg_b. cbn [map combine nth travelled]. destruct (Rle_dec 3 1); [lra|].
  replace (3 - 1) with 2 by ring. destruct (quad_in_seconds 1 3 5 2 ltac:(lra)) as (_ & _ & _ & -> & _). field.
Qed.
Print Assumptions C85_smooth.

(* all p+1 knots kept: values are right even if the segments do not meet *)
Theorem C85_stacked : forall p k n segs Ts rs i,
  Forall (fun sg => length sg = k /\ Forall (proper p) sg) segs -> Forall (fun T => 0 < T) Ts ->
  (2 <= length segs)%nat -> (i < k)%nat ->
  used_insert n segs Ts = Some (Z.of_nat (p + 1)) ->
  concat_splines segs Ts n = Some rs ->
  let r := nth i rs no_spline in
  length rs = k /\ clamped_on (sbasis r) 0 (duration (component i segs Ts)) /\ sized r /\
  degree (sbasis r) = p /\
  forall x, 0 <= x <= duration (component i segs Ts) ->
    call r x = travelled (component i segs Ts) 0 x.
Proof. exact concat_stacked. Qed.
Example C85_stacked_ex : exists rs, concat_splines [[mkS obasis [0; 0; 1]]; [mkS obasis [5; 3; 2]]] [1; 2] (Some 3%Z) = Some rs /\
  call (nth 0 rs no_spline) 1 = 1 /\ call (nth 0 rs no_spline) 3 = 2.
Proof.
  assert (PS : proper_segments 2 1 [[mkS obasis [0; 0; 1]]; [mkS obasis [5; 3; 2]]]).
  { constructor; [split; [reflexivity|constructor; [apply quad_proper|constructor]]|].
    constructor; [split; [reflexivity|constructor; [apply quad_proper|constructor]]|constructor]. }
  assert (J : exists rs, concat_splines [[mkS obasis [0; 0; 1]]; [mkS obasis [5; 3; 2]]] [1; 2] (Some 3%Z) = Some rs)
    by (eexists; reflexivity).
  destruct J as [rs J]. exists rs. split; [exact J|].
  destruct (C85_stacked 2 1 (Some 3%Z) _ [1; 2] rs 0 PS times12 ltac:(simpl; lia) ltac:(lia) eq_refl J) as (_ & _ & _ & _ & V).
  assert (D : duration (component 0 [[mkS obasis [0; 0; 1]]; [mkS obasis [5; 3; 2]]] [1; 2]) = 3)
    by (unfold duration; simpl; lra).
  rewrite D in V. rewrite !V by lra.
  unfold component. cbn [map combine nth travelled]. destruct (Rle_dec 1 1); [|lra]. destruct (Rle_dec 3 1); [lra|].
  replace (3 - 1) with 2 by ring.
  destruct (quad_in_seconds 0 0 1 1 ltac:(lra)) as (_ & -> & _).
  destruct (quad_in_seconds 5 3 2 2 ltac:(lra)) as (_ & -> & _). split; reflexivity.
Qed.
Print Assumptions C85_stacked.

(* a single segment is only rescaled to seconds *)
Theorem C85_single : forall p n sg T rs, Forall (proper p) sg -> 0 < T ->
  concat_splines [sg] [T] n = Some rs ->
  length rs = length sg /\ forall i, (i < length sg)%nat -> forall d x, (d <= p)%nat ->
    call (derivative (nth i rs no_spline) d) x = in_seconds (nth i sg no_spline) T d x.
Proof. exact concat_single. Qed.
Example C85_single_ex : exists rs, concat_splines [seg_b] [2] None = Some rs /\ call (nth 0 rs no_spline) 2 = 5.
Proof.
  eexists. split; [reflexivity|].
  pose proof (proj2 (C85_single 2 None seg_b 2 _ (Forall_cons _ (quad_proper 1 3 5) (Forall_nil _)) ltac:(lra) eq_refl)
     0%nat ltac:(simpl; lia) 0%nat 2 ltac:(lia)) as V.
  change (derivative (nth 0 (map (fun s => scale s 2 0) seg_b) no_spline) 0) with (nth 0 (map (fun s => scale s 2 0) seg_b) no_spline) in V.
  etransitivity; [exact V|]. destruct (quad_in_seconds 1 3 5 2 ltac:(lra)) as (_ & E & _). exact E.
Qed.
Print Assumptions C85_single.

(* G-code: with the connection constraints satisfied the stored splines and all their derivatives are the optimised segments in seconds, unless a site of the linear system is a joint *)
Theorem C85_gcode : forall p k segs Ts rs i, regular_segments p k segs -> Forall (fun T => 0 < T) Ts ->
  (2 <= length segs)%nat -> (i < k)%nat -> (1 <= p)%nat ->
  Forall (fun v => v = 0) (gcode_connections (gcode_continuity segs) segs Ts) ->
  clear_segments p 1 (component i segs Ts) ->
  store_splines segs Ts (Some (gcode_continuity segs)) p = Some rs ->
  forall d x, (d <= p)%nat -> 0 <= x <= duration (component i segs Ts) ->
    call (derivative (nth i rs no_spline) d) x = travelled (component i segs Ts) d x.
Proof. exact gcode_stored. Qed.
Example C85_gcode_ex : exists rs,
  store_splines [cube_a; cube_c] [1; 2] (Some (gcode_continuity [cube_a; cube_c])) 3 = Some rs /\
  clear_segments 3 1 (component 0 [cube_a; cube_c] [1; 2]).
Proof.
  destruct cubes_ac_stored as [rs E]. exists rs. split; [exact E|].
  apply cubic_segments_clear; [|apply cubes_ac_uneven].
  apply (component_proper 3 1); [apply (regular_proper _ _ _ cubes_ac_regular)|apply times12|lia].
Qed.
Print Assumptions C85_gcode.

(* degree 2: no further condition *)
Theorem C85_gcode_quadratic : forall k segs Ts rs i, regular_segments 2 k segs -> Forall (fun T => 0 < T) Ts ->
  (2 <= length segs)%nat -> (i < k)%nat ->
  Forall (fun v => v = 0) (gcode_connections (gcode_continuity segs) segs Ts) ->
  store_splines segs Ts (Some (gcode_continuity segs)) 2 = Some rs ->
  forall d x, (d <= 2)%nat -> 0 <= x <= duration (component i segs Ts) ->
    call (derivative (nth i rs no_spline) d) x = travelled (component i segs Ts) d x.
Proof. exact gcode_stored_quadratic. Qed.
Example C85_gcode_quadratic_ex : exists rs,
  store_splines [seg_a; seg_b] [1; 2] (Some (gcode_continuity [seg_a; seg_b])) 2 = Some rs /\
  call (derivative (nth 0 rs no_spline) 1) 1 = 2.
Proof.
  destruct stored_exists as [rs E]. exists rs. split; [exact E|].
  rewrite (C85_gcode_quadratic 1 [seg_a; seg_b] [1; 2] rs 0 segs_regular times12 ltac:(simpl; lia) ltac:(lia) segs_connected E);
    [|lia|rewrite segs_duration; lra].
  unfold component, seg_a, seg_b. cbn [map combine nth travelled]. destruct (Rle_dec 1 1); [|lra].
  destruct (quad_in_seconds 0 0 1 1 ltac:(lra)) as (_ & _ & _ & -> & _). field.
Qed.
Print Assumptions C85_gcode_quadratic.

(* degree 3, the degree of the tool: the knot distances next to every joint must differ *)
Theorem C85_gcode_cubic : forall k segs Ts rs i, regular_segments 3 k segs -> Forall (fun T => 0 < T) Ts ->
  (2 <= length segs)%nat -> (i < k)%nat ->
  Forall (fun v => v = 0) (gcode_connections (gcode_continuity segs) segs Ts) ->
  uneven (component i segs Ts) ->
  store_splines segs Ts (Some (gcode_continuity segs)) 3 = Some rs ->
  forall d x, (d <= 3)%nat -> 0 <= x <= duration (component i segs Ts) ->
    call (derivative (nth i rs no_spline) d) x = travelled (component i segs Ts) d x.
Proof. exact gcode_stored_cubic. Qed.
Example C85_gcode_cubic_ex : exists rs,
  store_splines [cube_a; cube_c] [1; 2] (Some (gcode_continuity [cube_a; cube_c])) 3 = Some rs /\
  call (nth 0 rs no_spline) 1 = 1.
Proof.
  destruct cubes_ac_stored as [rs E]. exists rs. split; [exact E|].
  change (nth 0 rs no_spline) with (derivative (nth 0 rs no_spline) 0).
  assert (DU : duration (component 0 [cube_a; cube_c] [1; 2]) = 3) by (unfold duration; simpl; lra).
  rewrite (C85_gcode_cubic 1 [cube_a; cube_c] [1; 2] rs 0 cubes_ac_regular times12 ltac:(simpl; lia) ltac:(lia)
     cubes_ac_connected cubes_ac_uneven E); [|lia|rewrite DU; lra].
  unfold component, cube_a, cube_c. cbn [map combine nth travelled]. destruct (Rle_dec 1 1); [|lra].
  unfold in_seconds. replace (1 / 1) with 1 by field.
  change (derivative (mkS cbasis [0; 0; 0; 1]) 0) with (mkS cbasis [0; 0; 0; 1]). rewrite cube_end. simpl. field.
Qed.
Print Assumptions C85_gcode_cubic.

(* with equal knot distances the stored value at the joint is the sum of both ends, twice the position *)
Theorem C85_gcode_doubles : forall k sg1 sg2 T1 T2 rs i, regular_segments 3 k [sg1; sg2] -> 0 < T1 -> 0 < T2 ->
  (i < k)%nat -> before_joint (nth i sg1 no_spline, T1) = after_joint (nth i sg2 no_spline, T2) ->
  store_splines [sg1; sg2] [T1; T2] (Some (gcode_continuity [sg1; sg2])) 3 = Some rs ->
  call (nth i rs no_spline) T1 = call (nth i sg1 no_spline) 1 + call (nth i sg2 no_spline) 0.
Proof. exact gcode_cubic_doubles. Qed.
Print Assumptions C85_gcode_doubles.

(* t^3 cut into two segments of one second: 2 is stored for t = 1 *)
Theorem C85_equal_cubes_refuted : exists rs,
  Forall (fun v => v = 0) (gcode_connections (gcode_continuity [cube_a; cube_b]) [cube_a; cube_b] [1; 1]) /\
  store_splines [cube_a; cube_b] [1; 1] (Some (gcode_continuity [cube_a; cube_b])) 3 = Some rs /\
  travelled (component 0 [cube_a; cube_b] [1; 1]) 0 1 = 1 /\ call (nth 0 rs no_spline) 1 = 2.
Proof. exact equal_cubes_refuted. Qed.
Print Assumptions C85_equal_cubes_refuted.

(* degree 3, one knot kept: a site is a joint exactly if the knot distances agree there *)
Theorem C85_sites_cubic : forall l, Forall (fun q => proper 3 (fst q) /\ 0 < snd q) l ->
  (clear_segments 3 1 l <-> uneven l).
Proof. exact cubic_segments_clear. Qed.
Example C85_sites_cubic_ex : ~ clear_segments 3 1 (component 0 [cube_a; cube_b] [1; 1]).
Proof.
  assert (P : Forall (fun T => 0 < T) [1; 1]) by (constructor; [lra|constructor; [lra|constructor]]).
  rewrite C85_sites_cubic.
  - unfold component, cube_a, cube_b, cbasis. cbn [map combine nth uneven]. intros [H _]. apply H.
    unfold before_joint, after_joint. cbn [nth fst snd sbasis knots length Nat.sub]. ring.
  - apply (component_proper 3 1); [apply (regular_proper _ _ _ cubes_regular)|exact P|lia].
Qed.
Print Assumptions C85_sites_cubic.

Theorem C85_sites_quadratic : forall l, Forall (fun q => proper 2 (fst q) /\ 0 < snd q) l -> clear_segments 2 1 l.
Proof. exact quadratic_segments_clear. Qed.
Example C85_sites_quadratic_ex : clear_segments 2 1 (component 0 [seg_a; seg_b] [1; 2]).
Proof.
  apply C85_sites_quadratic. apply (component_proper 2 1); [|apply times12|lia].
  apply (regular_proper _ _ _ segs_regular).
Qed.
Print Assumptions C85_sites_quadratic.

(* no requested continuity: if the first signal moves through the first joint with non-zero derivatives and a jump of the highest one, the trajectory is kept *)
Theorem C85_moving : forall p k sg1 sg2 rest T1 T2 Ts rs i,
  regular_segments p k (sg1 :: sg2 :: rest) -> Forall (fun T => 0 < T) (T1 :: T2 :: Ts) -> (i < k)%nat -> (1 <= p)%nat ->
  Forall (fun v => v = 0) (connections (sg1 :: sg2 :: rest) (T1 :: T2 :: Ts)) ->
  (forall d, (d < p)%nat -> in_seconds (nth 0 sg1 no_spline) T1 d T1 <> 0) ->
  same_value (in_seconds (nth 0 sg2 no_spline) T2 p 0) (in_seconds (nth 0 sg1 no_spline) T1 p T1) = false ->
  clear_segments p 1 (component i (sg1 :: sg2 :: rest) (T1 :: T2 :: Ts)) ->
  store_splines (sg1 :: sg2 :: rest) (T1 :: T2 :: Ts) None p = Some rs ->
  forall d x, (d <= p)%nat -> 0 <= x <= duration (component i (sg1 :: sg2 :: rest) (T1 :: T2 :: Ts)) ->
    call (derivative (nth i rs no_spline) d) x = travelled (component i (sg1 :: sg2 :: rest) (T1 :: T2 :: Ts)) d x.
Proof. exact moving_stored. Qed.
Example C85_moving_ex : exists rs, store_splines [seg_a; seg_b] [1; 2] None 2 = Some rs /\
  used_insert None [seg_a; seg_b] [1; 2] = Some 1%Z.
Proof.
  destruct stored_exists_moving as [rs E]. exists rs. split; [exact E|].
  unfold seg_a, seg_b. cbn [used_insert]. f_equal.
  destruct (quad_in_seconds 0 0 1 1 ltac:(lra)) as (_ & A0 & _ & A1 & _ & A2).
  destruct (quad_in_seconds 1 3 5 2 ltac:(lra)) as (B0 & _ & B1 & _ & B2 & _).
  rewrite (computed_first 2 _ _ _ _ 2); [reflexivity|apply quad_proper|apply quad_proper|lra|lra|lia| |].
  - intros d Hd. destruct d as [|[|d]]; [rewrite A0, B0|rewrite A1, B1; replace (2 * (3 - 1) / 2) with (2 * (1 - 0) / 1) by field|lia];
      rewrite same_equal; destruct (Req_EM_T _ 0); lra || reflexivity.
  - rewrite A2, B2. unfold same_value, Reqb, Rleb. destruct (Req_EM_T _ 0); [reflexivity|].
    destruct (Rle_dec _ _) as [L|]; [|reflexivity]. exfalso.
    replace (2 * (5 - 2 * 3 + 1) / 2 ^ 2) with 0 in L by field. replace (2 * (1 - 2 * 0 + 0) / 1 ^ 2) with 2 in L by field.
    replace (0 - 2) with (- (2)) in L by ring. rewrite Rabs_Ropp, Rabs_pos_eq in L by lra. lra.
Qed.
Print Assumptions C85_moving.

(* if the first joint lies in the origin of the first signal all knots are kept *)
Theorem C85_origin : forall p k sg1 sg2 rest T1 T2 Ts rs i,
  proper_segments p k (sg1 :: sg2 :: rest) -> Forall (fun T => 0 < T) (T1 :: T2 :: Ts) -> (i < k)%nat ->
  in_seconds (nth 0 sg1 no_spline) T1 0 T1 + in_seconds (nth 0 sg2 no_spline) T2 0 0 = 0 ->
  store_splines (sg1 :: sg2 :: rest) (T1 :: T2 :: Ts) None p = Some rs ->
  forall x, 0 <= x <= duration (component i (sg1 :: sg2 :: rest) (T1 :: T2 :: Ts)) ->
    call (nth i rs no_spline) x = travelled (component i (sg1 :: sg2 :: rest) (T1 :: T2 :: Ts)) 0 x.
Proof. exact origin_stored. Qed.
Example C85_origin_ex : exists rs, store_splines [[mkS obasis [-1; 0; 0]]; [mkS obasis [0; 1; 1]]] [1; 2] None 2 = Some rs.
Proof.
  destruct (quad_in_seconds (-1) 0 0 1 ltac:(lra)) as (_ & A0 & _).
  destruct (quad_in_seconds 0 1 1 2 ltac:(lra)) as (B0 & _).
  eexists. unfold store_splines, store_insert.
  apply (concat_two _ _ _ _ _ 3%Z); [reflexivity| |reflexivity].
  cbn [used_insert]. f_equal. rewrite (computed_first 2 _ _ _ _ 0); [reflexivity|apply quad_proper|apply quad_proper|lra|lra|lia| |].
  - intros d Hd. lia.
  - rewrite A0, B0, same_equal. destruct (Req_EM_T 0 0); lra || reflexivity.
Qed.
Print Assumptions C85_origin.

(* a stop of the first signal at the joint, outside the origin: every signal is stored with the sum of both ends at the joint *)
Theorem C85_standstill_doubles : forall p k sg1 sg2 T1 T2 rs i v, proper_segments p k [sg1; sg2] -> 0 < T1 -> 0 < T2 ->
  (1 <= p)%nat -> (i < k)%nat -> v <> 0 ->
  in_seconds (nth 0 sg1 no_spline) T1 0 T1 = v -> in_seconds (nth 0 sg2 no_spline) T2 0 0 = v ->
  in_seconds (nth 0 sg1 no_spline) T1 1 T1 = 0 -> in_seconds (nth 0 sg2 no_spline) T2 1 0 = 0 ->
  store_splines [sg1; sg2] [T1; T2] None p = Some rs ->
  call (nth i rs no_spline) T1 = call (nth i sg1 no_spline) 1 + call (nth i sg2 no_spline) 0.
Proof. exact standstill_doubles. Qed.
Print Assumptions C85_standstill_doubles.

(* a stop at position 1 is stored as position 2 *)
Theorem C85_standstill_refuted : exists sg1 sg2 rs, regular_segments 2 1 [sg1; sg2] /\
  Forall (fun v => v = 0) (connections [sg1; sg2] [1; 1]) /\
  store_splines [sg1; sg2] [1; 1] None 2 = Some rs /\
  travelled (component 0 [sg1; sg2] [1; 1]) 0 1 = 1 /\ call (nth 0 rs no_spline) 1 = 2.
Proof. exact standstill_refuted. Qed.
Print Assumptions C85_standstill_refuted.

(* the number of kept knots found by comparing derivatives *)
Theorem C85_count_range : forall prev s T t,
  (0 <= computed_insert prev s T t <= Z.of_nat (degree (sbasis prev)) + 1)%Z.
Proof. exact computed_range. Qed.
Example C85_count_range_ex : let z := computed_insert (mkS obasis [0; 0; 1]) (mkS obasis [1; 3; 5]) 2 1 in (0 <= z <= 3)%Z.
Proof. exact (C85_count_range (mkS obasis [0; 0; 1]) (mkS obasis [1; 3; 5]) 2 1). Qed.
Print Assumptions C85_count_range.

(* it is p+1 minus the first order whose values differ *)
Theorem C85_count_first : forall p s1 T1 s2 T2 k, proper p s1 -> proper p s2 -> 0 < T1 -> 0 < T2 -> (k <= p)%nat ->
  (forall d, (d < k)%nat -> same_value (in_seconds s2 T2 d 0) (in_seconds s1 T1 d T1) = true) ->
  same_value (in_seconds s2 T2 k 0) (in_seconds s1 T1 k T1) = false ->
  computed_insert (scale s1 T1 0) s2 T2 T1 = Z.of_nat (p + 1 - k).
Proof. exact computed_first. Qed.
Example C85_count_first_ex : computed_insert (scale (mkS obasis [0; 1; 1]) 1 0) (mkS obasis [1; 1; 0]) 1 1 = 2%Z.
Proof.
  destruct (quad_in_seconds 0 1 1 1 ltac:(lra)) as (_ & A0 & _ & A1 & _ & _).
  destruct (quad_in_seconds 1 1 0 1 ltac:(lra)) as (B0 & _ & B1 & _ & _ & _).
  rewrite (C85_count_first 2 _ _ _ _ 1); [reflexivity|apply quad_proper|apply quad_proper|lra|lra|lia| |].
  - intros d Hd. replace d with 0%nat by lia. rewrite A0, B0, same_equal. destruct (Req_EM_T 1 0); lra || reflexivity.
  - rewrite A1, B1. replace (2 * (1 - 1) / 1) with 0 by field. rewrite same_equal. destruct (Req_EM_T 0 0); lra || reflexivity.
Qed.
Print Assumptions C85_count_first.

(* for a positive sum the test is a relative difference of at most 0.2 percent of the sum *)
Theorem C85_test_positive : forall v1 v2, 0 < v1 + v2 ->
  (same_value v1 v2 = true <-> Rabs (v1 - v2) <= 2 / 1000 * (v1 + v2)).
Proof. exact same_positive. Qed.
Example C85_test_positive_ex : same_value 1 1 = true.
Proof. apply C85_test_positive; [lra|]. replace (1 - 1) with 0 by ring. rewrite Rabs_R0. lra. Qed.
Print Assumptions C85_test_positive.

(* for a negative sum the test always passes *)
Theorem C85_test_negative_refuted : (forall v1 v2, v1 + v2 < 0 -> same_value v1 v2 = true) /\ same_value (- 1) (- 5) = true.
Proof. exact (conj same_negative (same_negative (- 1) (- 5) ltac:(lra))). Qed.
Print Assumptions C85_test_negative_refuted.

(* equal values pass except for zero *)
Theorem C85_test_zero_refuted : (forall v, same_value v v = true <-> v <> 0) /\ same_value 0 0 = false.
Proof. split; [intros v; rewrite same_equal; destruct (Req_EM_T v 0); split; intros H; auto; try discriminate; tauto
  |rewrite same_equal; destruct (Req_EM_T 0 0); [reflexivity|lra]]. Qed.
Print Assumptions C85_test_zero_refuted.

(* no knot kept: the second segment is ignored and the first one stretched over the whole time *)
Theorem C85_zero_kept : forall a b c s T1 T2 r, 0 < T2 <= T1 -> sbasis s = obasis -> sized s ->
  join 0 (scale (mkS obasis [a; b; c]) T1 0) s T2 T1 = Some r ->
  forall x, 0 <= x <= T1 + T2 -> call r x = call (mkS obasis [a; b; c]) (x / (T1 + T2) * (T2 / T1)).
Proof. exact zero_insert_stretched. Qed.
Example C85_zero_kept_ex : exists r, join 0 (scale (mkS obasis [-1; -2; -4]) 2 0) (mkS obasis [-4; -5; -8]) 1 2 = Some r /\
  call r 0 = -1.
Proof.
  destruct zero_kept_example as [r J]. exists r. split; [exact J|].
  rewrite (C85_zero_kept (-1) (-2) (-4) (mkS obasis [-4; -5; -8]) 2 1 r ltac:(lra) eq_refl eq_refl J) by lra.
  replace (0 / (2 + 1) * (1 / 2)) with 0 by field. apply quad_start.
Qed.
Print Assumptions C85_zero_kept.

(* connected segments on the negative side: the stored trajectory ends at -9/4 instead of -8 *)
Theorem C85_negative_refuted : exists sg1 sg2 rs, regular_segments 2 1 [sg1; sg2] /\
  Forall (fun v => v = 0) (connections [sg1; sg2] [2; 1]) /\
  store_splines [sg1; sg2] [2; 1] None 2 = Some rs /\
  travelled (component 0 [sg1; sg2] [2; 1]) 0 3 = - 8 /\ call (nth 0 rs no_spline) 3 = - 9 / 4.
Proof. exact negative_refuted. Qed.
Print Assumptions C85_negative_refuted.

(* the continuity asked for by the G-code problem keeps one knot *)
Theorem C85_requested : forall deg, store_insert (Some deg) deg = Some 1%Z.
Proof. exact store_insert_right. Qed.
Example C85_requested_ex : store_insert (Some 3%nat) 3 = Some 1%Z.
Proof. reflexivity. Qed.
Print Assumptions C85_requested.

(* any lower continuity asks for fewer knots instead of more *)
Theorem C85_requested_lower_refuted : forall c deg z, (c < deg)%nat -> store_insert (Some c) deg = Some z -> (z <= 0)%Z.
Proof. exact store_insert_lower. Qed.
Example C85_requested_lower_ex : store_insert (Some 1%nat) 3 = Some (-1)%Z.
Proof. reflexivity. Qed.
Print Assumptions C85_requested_lower_refuted.
