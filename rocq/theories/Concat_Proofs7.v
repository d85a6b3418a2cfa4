(** Proofs about concat_splines: what store keeps for the two segment-wise problems. *)
From Coq Require Import Reals Lra Lia List Permutation Arith ZArith.
From Verif Require Import Blossom Spline_Model Spline_Spec Spline_Proofs Spline_Proofs2 Spline_Proofs3 Spline_Proofs5
  Splop_Model Splop_Spec Splop_Proofs Splop_Proofs2 Span_Proofs End_Proofs Contact_Proofs
  Multi_Model Multi_Spec Multi_Proofs Concat_Model Concat_Spec Concat_Proofs Concat_Proofs2 Concat_Proofs3 Concat_Proofs4
  Concat_Proofs5 Concat_Proofs6.
Import ListNotations.
Local Open Scope R_scope.

(** ** G-code: the segments are connected up to derivative degree - 1 *)
Theorem gcode_stored : forall p k segs Ts rs i, regular_segments p k segs -> Forall (fun T => 0 < T) Ts ->
  (2 <= length segs)%nat -> (i < k)%nat -> (1 <= p)%nat ->
  Forall (fun v => v = 0) (gcode_connections (gcode_continuity segs) segs Ts) ->
  clear_segments p 1 (component i segs Ts) ->
  store_splines segs Ts (Some (gcode_continuity segs)) p = Some rs ->
  forall d x, (d <= p)%nat -> 0 <= x <= duration (component i segs Ts) ->
    call (derivative (nth i rs no_spline) d) x = travelled (component i segs Ts) d x.
Proof.
  intros p k segs Ts rs i R PT L2 Hi Hp Z CL ST.
  assert (GC : gcode_continuity segs = p).
  { destruct segs as [|[|s sg] segs]; [simpl in L2; lia| |].
    - inversion R as [|? ? [L _] _]; subst x l. simpl in L. lia.
    - inversion R as [|? ? [_ F] _]; subst x l. inversion F as [|? ? RS _]; subst x l. apply RS. }
  rewrite GC in *. unfold store_splines, store_insert in ST.
  replace (Z.of_nat p - (Z.of_nat p - 1))%Z with (Z.of_nat 1) in ST by lia.
  pose proof (gcode_meets p k p segs Ts i R PT (le_n _) Hi Z) as M.
  replace p with (p + 1 - 1)%nat in M by lia.
  destruct (concat_smooth p k (Some (Z.of_nat 1)) segs Ts 1 rs i (regular_proper _ _ _ R) PT L2 Hi eq_refl
     ltac:(lia) M CL ST) as (_ & _ & _ & _ & V).
  exact V.
Qed.

Theorem gcode_stored_quadratic : forall k segs Ts rs i, regular_segments 2 k segs -> Forall (fun T => 0 < T) Ts ->
  (2 <= length segs)%nat -> (i < k)%nat ->
  Forall (fun v => v = 0) (gcode_connections (gcode_continuity segs) segs Ts) ->
  store_splines segs Ts (Some (gcode_continuity segs)) 2 = Some rs ->
  forall d x, (d <= 2)%nat -> 0 <= x <= duration (component i segs Ts) ->
    call (derivative (nth i rs no_spline) d) x = travelled (component i segs Ts) d x.
Proof.
  intros k segs Ts rs i R PT L2 Hi Z ST. apply (gcode_stored 2 k); auto.
  apply quadratic_segments_clear. apply (component_proper 2 k); auto. apply (regular_proper _ _ _ R).
Qed.

Theorem gcode_stored_cubic : forall k segs Ts rs i, regular_segments 3 k segs -> Forall (fun T => 0 < T) Ts ->
  (2 <= length segs)%nat -> (i < k)%nat ->
  Forall (fun v => v = 0) (gcode_connections (gcode_continuity segs) segs Ts) ->
  uneven (component i segs Ts) ->
  store_splines segs Ts (Some (gcode_continuity segs)) 3 = Some rs ->
  forall d x, (d <= 3)%nat -> 0 <= x <= duration (component i segs Ts) ->
    call (derivative (nth i rs no_spline) d) x = travelled (component i segs Ts) d x.
Proof.
  intros k segs Ts rs i R PT L2 Hi Z U ST. apply (gcode_stored 3 k); auto.
  apply cubic_segments_clear; auto. apply (component_proper 3 k); auto. apply (regular_proper _ _ _ R).
Qed.

(** ** a site on the joint: the stored value is the sum of both ends *)
Lemma two_doubles : forall p k n sg1 sg2 T1 T2 rs i m, proper_segments p k [sg1; sg2] -> 0 < T1 -> 0 < T2 ->
  (i < k)%nat -> (1 <= m <= p)%nat -> used_insert n [sg1; sg2] [T1; T2] = Some (Z.of_nat m) ->
  ~ clear_segments p m (component i [sg1; sg2] [T1; T2]) ->
  concat_splines [sg1; sg2] [T1; T2] n = Some rs ->
  call (nth i rs no_spline) T1 = call (nth i sg1 no_spline) 1 + call (nth i sg2 no_spline) 0.
Proof.
  intros p k n sg1 sg2 T1 T2 rs i m PS H1 H2 Hi Hm U NC E.
  assert (LF : Forall (fun sg => length sg = k) [sg1; sg2])
    by (unfold proper_segments in PS; eapply Forall_impl; [|exact PS]; simpl; tauto).
  destruct (concat_splines_comp n [sg1; sg2] [T1; T2] rs k E ltac:(lia) LF ltac:(simpl; lia)) as (m' & U' & L & C).
  rewrite U in U'. injection U' as <-.
  destruct (C i Hi) as (s & T & rest & EC & J).
  unfold component in EC. cbn [map combine] in EC. injection EC as <- <- <-.
  pose proof (component_proper p k [sg1; sg2] [T1; T2] i PS
     (Forall_cons T1 H1 (Forall_cons T2 H2 (Forall_nil _))) Hi) as FP.
  unfold component in FP. cbn [map combine] in FP.
  inversion FP as [|? ? [(C1 & Z1 & D1) _] FP']; subst x l. inversion FP' as [|? ? [(C2 & Z2 & D2) _] _]; subst x l.
  cbn [fst] in *.
  cbn [concat_one] in J. destruct (join (Z.of_nat m) _ _ T2 T1) as [r|] eqn:J1; [|discriminate]. injection J as EJ.
  rewrite <- EJ.
  destruct (first_scaled (nth i sg1 no_spline) T1 p C1 Z1 D1 H1) as (CP & ZP & DP & V).
  rewrite (join_doubles (scale (nth i sg1 no_spline) T1 0) (nth i sg2 no_spline) p m 0 T1 T2 CP C2 DP D2 H2
     ltac:(lia) ltac:(lia) r ltac:(lia)).
  - f_equal. pose proof (V 0%nat T1 ltac:(lia)) as V0. unfold in_seconds in V0. simpl in V0.
    change (derivative (scale (nth i sg1 no_spline) T1 0) 0) with (scale (nth i sg1 no_spline) T1 0) in V0.
    change (derivative (nth i sg1 no_spline) 0) with (nth i sg1 no_spline) in V0.
    rewrite V0. replace (T1 / T1) with 1 by (field; lra). field.
  - unfold component in NC. cbn [map combine clear_segments clear_joints] in NC.
    match type of NC with ~ (~ In ?a ?l /\ True) => destruct (in_dec Req_EM_T a l) as [I|I]; [|tauto] end.
    change (map (fun k => k * T1 + 0) (knots (sbasis (nth i sg1 no_spline))))
      with (knots (sbasis (scale (nth i sg1 no_spline) T1 0))) in I.
    rewrite (last_tau _ 0 T1 CP) in I. exact I.
  - exact J1.
Qed.

(** cubic segments with the same knot distance on both sides of the joint *)
Theorem gcode_cubic_doubles : forall k sg1 sg2 T1 T2 rs i, regular_segments 3 k [sg1; sg2] -> 0 < T1 -> 0 < T2 ->
  (i < k)%nat -> before_joint (nth i sg1 no_spline, T1) = after_joint (nth i sg2 no_spline, T2) ->
  store_splines [sg1; sg2] [T1; T2] (Some (gcode_continuity [sg1; sg2])) 3 = Some rs ->
  call (nth i rs no_spline) T1 = call (nth i sg1 no_spline) 1 + call (nth i sg2 no_spline) 0.
Proof.
  intros k sg1 sg2 T1 T2 rs i R H1 H2 Hi EQ ST.
  assert (GC : gcode_continuity [sg1; sg2] = 3%nat).
  { destruct sg1 as [|s sg]; inversion R as [|? ? [L F] _]; subst x l; [simpl in L; lia|].
    inversion F as [|? ? RS _]; subst x l. apply RS. }
  rewrite GC in ST. unfold store_splines, store_insert in ST.
  replace (Z.of_nat 3 - (Z.of_nat 3 - 1))%Z with (Z.of_nat 1) in ST by reflexivity.
  apply (two_doubles 3 k (Some (Z.of_nat 1)) sg1 sg2 T1 T2 rs i 1); auto.
  - apply (regular_proper _ _ _ R).
  - intros C. apply cubic_segments_clear in C.
    + unfold component in C. cbn [map combine uneven] in C. tauto.
    + apply (component_proper 3 k); auto. apply (regular_proper _ _ _ R).
Qed.

(** ** no requested continuity *)
Lemma full_not_clear : forall p l s1 T1 s2 T2, (1 <= p)%nat -> l = [(s1, T1); (s2, T2)] ->
  proper p s1 -> proper p s2 -> 0 < T1 -> 0 < T2 -> ~ clear_segments p p l.
Proof.
  intros p l s1 T1 s2 T2 Hp -> (C1 & Z1 & D1) (C2 & Z2 & D2) H1 H2 C.
  cbn [clear_segments clear_joints] in C. destruct C as [C _]. apply C.
  destruct (first_scaled s1 T1 p C1 Z1 D1 H1) as (CP & ZP & DP & _).
  change (map (fun k => k * T1 + 0) (knots (sbasis s1))) with (knots (sbasis (scale s1 T1 0))).
  rewrite (last_tau _ 0 T1 CP).
  rewrite (joined_knots_eq (scale s1 T1 0) s2 p p 0 T1 T2 CP).
  change (mkB (knots (jbasis (scale s1 T1 0) (scale s2 T2 T1) p p)) p) with (jbasis (scale s1 T1 0) (scale s2 T2 T1) p p).
  apply (joint_site_full (scale s1 T1 0) s2 p p 0 T1 T2); auto; lia.
Qed.

Lemma head_proper : forall p k sg i, length sg = k -> Forall (proper p) sg -> (i < k)%nat -> proper p (nth i sg no_spline).
Proof. intros p k sg i L F Hi. rewrite Forall_forall in F. apply F. apply nth_In. lia. Qed.

Theorem standstill_doubles : forall p k sg1 sg2 T1 T2 rs i v, proper_segments p k [sg1; sg2] -> 0 < T1 -> 0 < T2 ->
  (1 <= p)%nat -> (i < k)%nat -> v <> 0 ->
  in_seconds (nth 0 sg1 no_spline) T1 0 T1 = v -> in_seconds (nth 0 sg2 no_spline) T2 0 0 = v ->
  in_seconds (nth 0 sg1 no_spline) T1 1 T1 = 0 -> in_seconds (nth 0 sg2 no_spline) T2 1 0 = 0 ->
  store_splines [sg1; sg2] [T1; T2] None p = Some rs ->
  call (nth i rs no_spline) T1 = call (nth i sg1 no_spline) 1 + call (nth i sg2 no_spline) 0.
Proof.
  intros p k sg1 sg2 T1 T2 rs i v PS H1 H2 Hp Hi NV E1 E2 E3 E4 ST.
  inversion PS as [|? ? [L1 F1] PS']; subst x l. inversion PS' as [|? ? [L2 F2] _]; subst x l.
  assert (P1 := head_proper p k sg1 0 L1 F1 ltac:(lia)). assert (P2 := head_proper p k sg2 0 L2 F2 ltac:(lia)).
  apply (two_doubles p k None sg1 sg2 T1 T2 rs i p); auto.
  - pose proof (computed_first p _ T1 _ T2 1 P1 P2 H1 H2 ltac:(lia)) as CI.
    destruct sg1 as [|s1 sg1]; [simpl in L1; lia|]. destruct sg2 as [|s2 sg2]; [simpl in L2; lia|].
    cbn [nth] in *. cbn [used_insert]. f_equal. rewrite CI.
    + f_equal. lia.
    + intros d Hd. replace d with 0%nat by lia. rewrite E1, E2. rewrite same_equal. destruct (Req_EM_T v 0); tauto.
    + rewrite E3, E4, same_equal. destruct (Req_EM_T 0 0); [reflexivity|lra].
  - apply (full_not_clear p _ (nth i sg1 no_spline) T1 (nth i sg2 no_spline) T2); auto;
      apply (head_proper p k); auto.
Qed.

(** a joint in the origin (of the first signal): all knots are kept, values are right *)
Theorem origin_stored : forall p k sg1 sg2 rest T1 T2 Ts rs i,
  proper_segments p k (sg1 :: sg2 :: rest) -> Forall (fun T => 0 < T) (T1 :: T2 :: Ts) -> (i < k)%nat ->
  in_seconds (nth 0 sg1 no_spline) T1 0 T1 + in_seconds (nth 0 sg2 no_spline) T2 0 0 = 0 ->
  store_splines (sg1 :: sg2 :: rest) (T1 :: T2 :: Ts) None p = Some rs ->
  forall x, 0 <= x <= duration (component i (sg1 :: sg2 :: rest) (T1 :: T2 :: Ts)) ->
    call (nth i rs no_spline) x = travelled (component i (sg1 :: sg2 :: rest) (T1 :: T2 :: Ts)) 0 x.
Proof.
  intros p k sg1 sg2 rest T1 T2 Ts rs i PS PT Hi E ST.
  inversion PS as [|? ? [L1 F1] PS']; subst x l. inversion PS' as [|? ? [L2 F2] _]; subst x l.
  inversion PT as [|? ? H1 PT']; subst x l. inversion PT' as [|? ? H2 _]; subst x l.
  assert (P1 := head_proper p k sg1 0 L1 F1 ltac:(lia)). assert (P2 := head_proper p k sg2 0 L2 F2 ltac:(lia)).
  destruct (concat_stacked p k None (sg1 :: sg2 :: rest) (T1 :: T2 :: Ts) rs i PS PT ltac:(simpl; lia) Hi) as (_ & _ & _ & _ & V).
  - pose proof (computed_first p _ T1 _ T2 0 P1 P2 H1 H2 ltac:(lia)) as CI.
    destruct sg1 as [|s1 sg1]; [simpl in L1; lia|]. destruct sg2 as [|s2 sg2]; [simpl in L2; lia|].
    cbn [nth] in *. cbn [used_insert]. f_equal. rewrite CI.
    + f_equal. lia.
    + intros d Hd. lia.
    + unfold same_value, Reqb. destruct (Req_EM_T _ 0); [reflexivity|lra].
  - exact ST.
  - exact V.
Qed.

(** moving through the joint: the trajectory is kept while the highest derivative jumps *)
Theorem moving_stored : forall p k sg1 sg2 rest T1 T2 Ts rs i,
  regular_segments p k (sg1 :: sg2 :: rest) -> Forall (fun T => 0 < T) (T1 :: T2 :: Ts) -> (i < k)%nat -> (1 <= p)%nat ->
  Forall (fun v => v = 0) (connections (sg1 :: sg2 :: rest) (T1 :: T2 :: Ts)) ->
  (forall d, (d < p)%nat -> in_seconds (nth 0 sg1 no_spline) T1 d T1 <> 0) ->
  same_value (in_seconds (nth 0 sg2 no_spline) T2 p 0) (in_seconds (nth 0 sg1 no_spline) T1 p T1) = false ->
  clear_segments p 1 (component i (sg1 :: sg2 :: rest) (T1 :: T2 :: Ts)) ->
  store_splines (sg1 :: sg2 :: rest) (T1 :: T2 :: Ts) None p = Some rs ->
  forall d x, (d <= p)%nat -> 0 <= x <= duration (component i (sg1 :: sg2 :: rest) (T1 :: T2 :: Ts)) ->
    call (derivative (nth i rs no_spline) d) x = travelled (component i (sg1 :: sg2 :: rest) (T1 :: T2 :: Ts)) d x.
Proof.
  intros p k sg1 sg2 rest T1 T2 Ts rs i R PT Hi Hp CN NZ JP CL ST.
  pose proof (regular_proper _ _ _ R) as PS.
  inversion PS as [|? ? [L1 F1] PS']; subst x l. inversion PS' as [|? ? [L2 F2] _]; subst x l.
  inversion PT as [|? ? H1 PT']; subst x l. inversion PT' as [|? ? H2 _]; subst x l.
  assert (P1 := head_proper p k sg1 0 L1 F1 ltac:(lia)). assert (P2 := head_proper p k sg2 0 L2 F2 ltac:(lia)).
  rewrite (connections_gcode p k) in CN by exact R.
  pose proof (gcode_meets p k p _ _ 0 R PT (le_n _) ltac:(lia) CN) as M0.
  pose proof (gcode_meets p k p _ _ i R PT (le_n _) Hi CN) as M.
  replace p with (p + 1 - 1)%nat in M by lia.
  assert (U : used_insert None (sg1 :: sg2 :: rest) (T1 :: T2 :: Ts) = Some (Z.of_nat 1)).
  { pose proof (computed_first p _ T1 _ T2 p P1 P2 H1 H2 ltac:(lia)) as CI.
    destruct sg1 as [|s1 sg1]; [simpl in L1; lia|]. destruct sg2 as [|s2 sg2]; [simpl in L2; lia|].
    cbn [nth] in *. cbn [used_insert]. f_equal. rewrite CI.
    - f_equal. lia.
    - intros d Hd. destruct M0 as [M0 _]. pose proof (M0 d Hd) as QM. cbn [nth] in QM. rewrite <- QM. rewrite same_equal.
      destruct (Req_EM_T _ 0) as [Z|Z]; [|reflexivity]. exfalso. exact (NZ d Hd Z).
    - exact JP. }
  destruct (concat_smooth p k None _ _ 1 rs i PS PT ltac:(simpl; lia) Hi U ltac:(lia) M CL ST) as (_ & _ & _ & _ & V).
  exact V.
Qed.

(** ** the number of knots that store asks for *)
Theorem store_insert_right : forall deg, store_insert (Some deg) deg = Some 1%Z.
Proof. intros. unfold store_insert. f_equal. lia. Qed.
Theorem store_insert_lower : forall c deg z, (c < deg)%nat -> store_insert (Some c) deg = Some z -> (z <= 0)%Z.
Proof. intros c deg z H E. unfold store_insert in E. injection E as <-. lia. Qed.
