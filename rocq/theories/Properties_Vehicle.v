(* Properties of holonomic vehicles, the machine tool and the arrival tests. *)
From Coq Require Import Reals List Arith Bool String Lia Lra.
From Verif Require Import Angle_Model Angle_Proofs Vehicle_Model Wheel_Model Vehicle_Spec Vehicle_Proofs Vehicle_Proofs2
  Wheel_Proofs Wheel_Proofs3 Vehicle_Examples.
Import ListNotations.
Open Scope R_scope.

(* below tolerance one the test is what it says *)
Theorem C30_arrival : forall tol err input, tol < 1 ->
  (arrived tol err input = true <-> sqrt (sumsq err) <= tol /\ sqrt (sumsq input) <= tol).
Proof. exact arrived_ok. Qed.
Example C30_arrival_ex : sqrt (sumsq [3/1000; 4/1000]) <= 1/100 /\ arrived (1/100) [3/1000; 4/1000] [0; 0] = true.
Proof.
  assert (A : sqrt (sumsq [3/1000; 4/1000]) = 5/1000).
  { cbn [sumsq]. replace ((3/1000) ^ 2 + ((4/1000) ^ 2 + 0)) with ((5/1000) ^ 2) by field. apply sqrt_pow2. lra. }
  assert (B : sqrt (sumsq [0; 0]) = 0).
  { cbn [sumsq]. replace (0 ^ 2 + (0 ^ 2 + 0)) with 0 by ring. apply sqrt_0. }
  rewrite A. split; [lra|]. apply arrived_ok; [lra|]. rewrite A, B. lra.
Qed.
Print Assumptions C30_arrival.

(* from tolerance one on a large pose error makes the test succeed *)
Theorem C30_large_tolerance : forall tol err input, 1 <= tol ->
  (arrived tol err input = true <-> (tol < sqrt (sumsq err) \/ sqrt (sumsq input) <= tol)).
Proof. exact arrived_big_tol. Qed.
Print Assumptions C30_large_tolerance.

(* so the test can succeed with both quantities above the tolerance *)
Theorem C30_arrival_refuted : exists tol err input, 0 < tol /\ arrived tol err input = true /\
  ~ (sqrt (sumsq err) <= tol) /\ ~ (sqrt (sumsq input) <= tol).
Proof. exact arrived_refuted. Qed.
Print Assumptions C30_arrival_refuted.

(* Quadrotor3D compares the input norm with gravity from one side only *)
Theorem C30_quadrotor3d : forall tol g err input,
  (arrived3d tol g err input = true <-> sqrt (sumsq err) <= tol /\ sqrt (sumsq input) <= g + tol).
Proof. exact arrived3d_ok. Qed.
Print Assumptions C30_quadrotor3d.

(* without any thrust it counts as hovering *)
Theorem C30_quadrotor3d_refuted : exists tol g err, 0 < tol /\ tol < g /\ arrived3d tol g err [0; 0; 0] = true.
Proof. exact arrived3d_refuted. Qed.
Print Assumptions C30_quadrotor3d_refuted.

(* the trailer angle matters only when it was specified *)
Theorem C30_trailer : forall tol th thT lead,
  (arrived_trailer tol th thT lead = true <->
   lead = true /\ forall a, thT = Some a -> Rabs (th - a) <= tol).
Proof. exact arrived_trailer_ok. Qed.
Print Assumptions C30_trailer.

(* Holonomic, norm_inf: constraints at all normalised times give bounded velocity and acceleration of the position at all physical times *)
Theorem C50_all_times : forall b T (X : nat -> R -> jet) cs, 0 < T ->
  (forall i o, (i < 2)%nat -> (o < 2)%nat -> smooth 0 1 (X i) o) ->
  holonomic_constraints "norm_inf" b T = Some cs ->
  (forall tau, 0 <= tau <= 1 -> holds (fun i => X i tau) cs) ->
  let L := holonomic_limits b in
  exists vx vy ax ay, forall t, 0 <= t <= T ->
    deriv_in 0 T (fun u => X 0%nat (u / T) 0%nat) t (vx t) /\ deriv_in 0 T (fun u => X 1%nat (u / T) 0%nat) t (vy t) /\
    deriv_in 0 T vx t (ax t) /\ deriv_in 0 T vy t (ay t) /\
    vxmin L <= vx t <= vxmax L /\ vymin L <= vy t <= vymax L /\
    axmin L <= ax t <= axmax L /\ aymin L <= ay t <= aymax L.
Proof. 
  intros b T X cs P SM E H L.
  exists (fun t => phys T (X 0%nat (t / T)) 1), (fun t => phys T (X 1%nat (t / T)) 1),
         (fun t => phys T (X 0%nat (t / T)) 2), (fun t => phys T (X 1%nat (t / T)) 2).
  intros t I.
  assert (Q : 0 <= t / T <= 1).
  { split; apply (Rmult_le_reg_r T); try exact P; replace (t / T * T) with t by (field; lra); lra. }
  destruct (holonomic_inf_ok b T (fun i => X i (t / T)) P) as (cs' & E' & K). rewrite E in E'. injection E' as E'. subst cs'.
  specialize (H _ Q). apply K in H. fold L in H. cbv beta in H.
  assert (D : forall i o, (i < 2)%nat -> (o < 2)%nat ->
    deriv_in 0 T (fun u => phys T (X i (u / T)) o) t (phys T (X i (t / T)) (S o))).
  { intros i o A B. exact (phys_smooth T (X i) o P (SM i o A B) t I). }
  destruct H as (H1 & H2 & H3 & H4).
  split; [|split; [|split; [|split]]]; [| | | |tauto].
  - apply (deriv_ext _ _ (fun u => phys T (X 0%nat (u / T)) 0)); [exact I|intros; apply phys0|]. apply D; lia.
  - apply (deriv_ext _ _ (fun u => phys T (X 1%nat (u / T)) 0)); [exact I|intros; apply phys0|]. apply D; lia.
  - apply D; lia.
  - apply D; lia.
 Qed.
Example C50_all_times_ex :
  let b := HB None None None None None None None None None None None None in
  exists cs, holonomic_constraints "norm_inf" b 10 = Some cs /\
  forall tau, 0 <= tau <= 1 -> holds (fun i => match i with 0%nat => cubic 0 0 9 (-6) tau | _ => cubic 1 0 (-3) 2 tau end) cs.
Proof.
  intros b. destruct (holonomic_inf_ok b 10 (fun _ => cubic 0 0 0 0 0) ltac:(lra)) as (cs & E & _).
  exists cs. split; [exact E|]. intros tau I.
  destruct (holonomic_inf_ok b 10 (fun i => match i with 0%nat => cubic 0 0 9 (-6) tau | _ => cubic 1 0 (-3) 2 tau end) ltac:(lra))
    as (cs' & E' & K). rewrite E in E'. injection E' as E'. subst cs'. apply K.
  unfold phys; cbn. assert (0 <= tau * (1 - tau)) by (apply Rmult_le_pos; lra).
  assert (tau * (1 - tau) <= 1/4) by (pose proof (pow2_ge_0 (tau - 1/2)); lra). repeat split; lra.
Qed.
Print Assumptions C50_all_times.

(* pointwise the constraints say exactly that, nothing stricter *)
Theorem C50_norm_inf : forall b T env, 0 < T -> exists cs,
  holonomic_constraints "norm_inf" b T = Some cs /\
  let L := holonomic_limits b in
  (holds env cs <->
   vxmin L <= phys T (env 0%nat) 1 <= vxmax L /\ vymin L <= phys T (env 1%nat) 1 <= vymax L /\
   axmin L <= phys T (env 0%nat) 2 <= axmax L /\ aymin L <= phys T (env 1%nat) 2 <= aymax L).
Proof. exact holonomic_inf_ok. Qed.
Print Assumptions C50_norm_inf.

(* norm_2 limits speed and length of the acceleration *)
Theorem C50_norm_2 : forall b T env, 0 < T ->
  let vm := dflt (b_vmax b) (1/2) in let am := dflt (b_amax b) 1 in
  0 <= vm -> 0 <= am -> exists cs,
  holonomic_constraints "norm_2" b T = Some cs /\
  (holds env cs <->
   sqrt (phys T (env 0%nat) 1 ^ 2 + phys T (env 1%nat) 1 ^ 2) <= vm /\
   sqrt (phys T (env 0%nat) 2 ^ 2 + phys T (env 1%nat) 2 ^ 2) <= am).
Proof. exact holonomic_two_ok. Qed.
Example C50_norm_2_ex : 0 <= dflt (b_vmax (HB None None None None None None None None None (Some 2) None None)) (1/2).
Proof. cbn. lra. Qed.
Print Assumptions C50_norm_2.

(* other values of syslimit are rejected *)
Theorem C50_unknown_limit : forall s b T, s <> "norm_inf"%string -> s <> "norm_2"%string ->
  holonomic_constraints s b T = None.
Proof. exact holonomic_other. Qed.
Example C50_unknown_limit_ex : "norm_1"%string <> "norm_inf"%string /\ "norm_1"%string <> "norm_2"%string.
Proof. split; discriminate. Qed.
Print Assumptions C50_unknown_limit.

(* a common bound vmax overrides the bounds per axis *)
Theorem C50_common_bound : forall b v, b_vmax b = Some v ->
  vxmax (holonomic_limits b) = v /\ vymax (holonomic_limits b) = v.
Proof. exact holonomic_limits_common. Qed.
Example C50_common_bound_ex : b_vmax (HB None None (Some 1) None None None None None None (Some 2) None None) = Some 2.
Proof. reflexivity. Qed.
Print Assumptions C50_common_bound.

(* Holonomic1D *)
Theorem C50_1d : forall vmin vmax amin amax T env, 0 < T ->
  (holds env (holonomic1d_constraints vmin vmax amin amax T) <->
   vmin <= phys T (env 0%nat) 1 <= vmax /\ amin <= phys T (env 0%nat) 2 <= amax).
Proof. exact holonomic1d_ok. Qed.
Print Assumptions C50_1d.

(* Holonomic3D *)
Theorem C50_3d_norm_inf : forall vmin vmax amin amax T env, 0 < T -> exists cs,
  holonomic3d_constraints "norm_inf" vmin vmax amin amax T = Some cs /\
  (holds env cs <-> forall i, (i < 3)%nat ->
     vmin <= phys T (env i) 1 <= vmax /\ amin <= phys T (env i) 2 <= amax).
Proof. exact holonomic3d_inf_ok. Qed.
Print Assumptions C50_3d_norm_inf.

Theorem C50_3d_norm_2 : forall vmin vmax amin amax T env, 0 < T -> 0 <= vmax -> 0 <= amax -> exists cs,
  holonomic3d_constraints "norm_2" vmin vmax amin amax T = Some cs /\
  (holds env cs <->
   sqrt (phys T (env 0%nat) 1 ^ 2 + phys T (env 1%nat) 1 ^ 2 + phys T (env 2%nat) 1 ^ 2) <= vmax /\
   sqrt (phys T (env 0%nat) 2 ^ 2 + phys T (env 1%nat) 2 ^ 2 + phys T (env 2%nat) 2 ^ 2) <= amax).
Proof. exact holonomic3d_two_ok. Qed.
Print Assumptions C50_3d_norm_2.

(* HolonomicOrient: the turning rate written to the signals is limited as well *)
Theorem C50_orient_norm_inf : forall vmin vmax amin amax wmin wmax T env, 0 < T -> exists cs,
  holonomicorient_constraints "norm_inf" vmin vmax amin amax wmin wmax T = Some cs /\
  (holds env cs <->
   (forall i, (i < 2)%nat -> vmin <= phys T (env i) 1 <= vmax /\ amin <= phys T (env i) 2 <= amax) /\
   wmin <= nth 2 (holonomicorient_input (phys T (env 0%nat)) (phys T (env 1%nat)) (phys T (env 2%nat))) 0 <= wmax).
Proof. exact orient_inf_ok. Qed.
Print Assumptions C50_orient_norm_inf.

Theorem C50_orient_norm_2 : forall vmin vmax amin amax wmin wmax T env, 0 < T -> 0 <= vmax -> 0 <= amax -> exists cs,
  holonomicorient_constraints "norm_2" vmin vmax amin amax wmin wmax T = Some cs /\
  (holds env cs <->
   sqrt (phys T (env 0%nat) 1 ^ 2 + phys T (env 1%nat) 1 ^ 2) <= vmax /\
   sqrt (phys T (env 0%nat) 2 ^ 2 + phys T (env 1%nat) 2 ^ 2) <= amax /\
   wmin <= nth 2 (holonomicorient_input (phys T (env 0%nat)) (phys T (env 1%nat)) (phys T (env 2%nat))) 0 <= wmax).
Proof. exact orient_two_ok. Qed.
Print Assumptions C50_orient_norm_2.

(* and that rate is the derivative of the angle written to the signals *)
Theorem C50_orient_rate : forall lo hi (tg : R -> jet) t, lo <= t <= hi -> smooth lo hi tg 0 ->
  deriv_in lo hi (fun u => tgtheta (tg u)) t (tgdtheta (tg t)).
Proof. exact theta_deriv. Qed.
Example C50_orient_rate_ex : smooth 0 1 (cubic 0 1 0 0) 0.
Proof. apply cubic_smooth. Qed.
Print Assumptions C50_orient_rate.

(* Tool with velocity limits per axis *)
Theorem C50_tool_axes : forall L T env, 0 < T -> exists cs, tool_constraints "axes" L T = Some cs /\
  (holds env cs <-> forall k, (k < 3)%nat ->
     t_vmin L k <= phys T (env k) 1 <= t_vmax L k /\
     t_amin L k <= phys T (env k) 2 <= t_amax L k /\
     t_jmin L k <= phys T (env k) 3 <= t_jmax L k).
Proof. exact tool_axes_ok. Qed.
Print Assumptions C50_tool_axes.

(* Tool with a limit on the feed rate *)
Theorem C50_tool_machining : forall L T env, 0 < T -> 0 < t_vmax L 0 -> exists cs,
  tool_constraints "machining" L T = Some cs /\
  (holds env cs <->
   sqrt (phys T (env 0%nat) 1 ^ 2 + phys T (env 1%nat) 1 ^ 2) <= t_vmax L 0 /\
   forall k, (k < 3)%nat ->
     t_amin L k <= phys T (env k) 2 <= t_amax L k /\
     t_jmin L k <= phys T (env k) 3 <= t_jmax L k).
Proof. exact tool_machining_ok. Qed.
Print Assumptions C50_tool_machining.

(* which leaves the velocity along z unbounded *)
Theorem C50_tool_z_refuted : exists L T env cs, 0 < T /\ 0 < t_vmax L 0 /\
  tool_constraints "machining" L T = Some cs /\ holds env cs /\
  t_vmax L 2 < phys T (env 2%nat) 1.
Proof. exact tool_z_free. Qed.
Print Assumptions C50_tool_z_refuted.

(* a common velocity bound of the tool does not reach the z axis *)
Theorem C50_tool_common_bound : forall c L v w, c_vmin c = Some v -> c_vmax c = Some w ->
  (forall k, (k < 2)%nat -> t_vmin (tool_limits c L) k = v /\ t_vmax (tool_limits c L) k = w) /\
  t_vmin (tool_limits c L) 2 = t_vmin L 2 /\ t_vmax (tool_limits c L) 2 = t_vmax L 2.
Proof. exact tool_common_z. Qed.
Example C50_tool_common_bound_ex : c_vmin (TC (Some (-1)) (Some 2) None None None None) = Some (-1).
Proof. reflexivity. Qed.
Print Assumptions C50_tool_common_bound.

(* Holonomic: the start constraints hold exactly when the signals start at the prediction *)
Theorem C77_holonomic : forall px py vx vy T env, 0 < T ->
  (holds env (map init_constraint (holonomic_init (px, py) (vx, vy) T)) <->
   holonomic_state (phys T (env 0%nat)) (phys T (env 1%nat)) = [px; py] /\
   holonomic_input (phys T (env 0%nat)) (phys T (env 1%nat)) = [vx; vy]).
Proof. exact holonomic_init_ok. Qed.
Example C77_holonomic_ex :
  holds (fun i => match i with 0%nat => cubic 1 4 0 0 0 | _ => cubic 2 6 0 0 0 end)
    (map init_constraint (holonomic_init (1, 2) (2, 3) 2)).
Proof. apply holonomic_init_ok; [lra|]. unfold holonomic_state, holonomic_input, phys; cbn. split; repeat apply f_equal2; lra || reflexivity. Qed.
Print Assumptions C77_holonomic.

(* HolonomicOrient *)
Theorem C77_orient : forall px py th vx vy w T env, 0 < T -> - PI < th < PI ->
  (holds env (map init_constraint (holonomicorient_init (px, py, th) (vx, vy, w) T)) <->
   holonomicorient_state (phys T (env 0%nat)) (phys T (env 1%nat)) (phys T (env 2%nat)) = [px; py; th] /\
   holonomicorient_input (phys T (env 0%nat)) (phys T (env 1%nat)) (phys T (env 2%nat)) = [vx; vy; w]).
Proof. exact orient_init_ok. Qed.
Example C77_orient_ex : - PI < 1 < PI.
Proof. pose proof PI2_3_2. unfold PI2 in *. lra. Qed.
Print Assumptions C77_orient.

(* Holonomic: the terminal constraints imply a positive arrival test *)
Theorem C78_holonomic : forall px py T env tol, 0 < T -> 0 <= tol ->
  holds env (map term_constraint (holonomic_term (px, py))) ->
  arrived tol (vsub (holonomic_state (phys T (env 0%nat)) (phys T (env 1%nat))) [px; py])
    (holonomic_input (phys T (env 0%nat)) (phys T (env 1%nat))) = true.
Proof. exact holonomic_term_ok. Qed.
Example C78_holonomic_ex :
  holds (fun i => match i with 0%nat => cubic 5 0 0 0 1 | _ => cubic 7 0 0 0 1 end) (map term_constraint (holonomic_term (5, 7))).
Proof.
  intros c H. cbn in H. unfold term_constraint.
  repeat (destruct H as [<- | H]; [cbn; lra|]). contradiction.
Qed.
Print Assumptions C78_holonomic.

(* HolonomicOrient *)
Theorem C78_orient : forall px py th T env tol, 0 < T -> - PI < th < PI -> 0 <= tol ->
  holds env (map term_constraint (holonomicorient_term (px, py, th))) ->
  arrived tol (vsub (holonomicorient_state (phys T (env 0%nat)) (phys T (env 1%nat)) (phys T (env 2%nat))) [px; py; th])
    (holonomicorient_input (phys T (env 0%nat)) (phys T (env 1%nat)) (phys T (env 2%nat))) = true.
Proof. exact orient_term_ok. Qed.
Example C78_orient_ex :
  holds (fun i => match i with 0%nat => cubic 5 0 0 0 1 | 1%nat => cubic 7 0 0 0 1 | _ => cubic 1 0 0 0 1 end)
    (map term_constraint (holonomicorient_term (5, 7, PI / 2))).
Proof.
  assert (E : tan (PI / 2 / 2) = 1) by (replace (PI / 2 / 2) with (PI / 4) by field; apply tan_PI4).
  intros c H. cbn in H. rewrite E in H. unfold term_constraint in H.
  repeat (destruct H as [<- | H]; [cbn; lra|]). contradiction.
Qed.
Print Assumptions C78_orient.

(* on a slanted straight segment the tool keeps within half the room height of the line *)
Theorem C79_slanted : forall lims x1 y1 z1 x2 y2 z2 h env, (x1, y1) <> (x2, y2) ->
  (holds env (tool_shape_cons 0 (Straight false lims (x1, y1, z1) (x2, y2, z2) h)) <->
   exists s, sqrt ((env 0%nat 0%nat - (x1 + s * (x2 - x1))) ^ 2 + (env 1%nat 0%nat - (y1 + s * (y2 - y1))) ^ 2) <= h / 2).
Proof. exact tool_straight_ok. Qed.
Example C79_slanted_ex : (1, 2) <> (3, 5).
Proof. intros E. injection E. lra. Qed.
Print Assumptions C79_slanted.

(* on an axis-parallel segment it keeps inside the room *)
Theorem C79_aligned : forall xlo xhi ylo yhi a b h env,
  (holds env (tool_shape_cons 0 (Straight true ((xlo, xhi), (ylo, yhi)) a b h)) <->
   xlo <= env 0%nat 0%nat <= xhi /\ ylo <= env 1%nat 0%nat <= yhi).
Proof. exact tool_aligned_ok. Qed.
Print Assumptions C79_aligned.

(* on an arc it keeps between the two radii *)
Theorem C79_arc : forall cx cy rin rout a b env, 0 <= rin -> 0 <= rout ->
  (holds env (tool_shape_cons 0 (RingSeg (cx, cy) rin rout a b)) <->
   rin <= sqrt ((env 0%nat 0%nat - cx) ^ 2 + (env 1%nat 0%nat - cy) ^ 2) <= rout).
Proof. exact tool_ring_ok. Qed.
Print Assumptions C79_arc.

(* and between the heights of both ends *)
Theorem C79_height : forall s env, snd (seg_start s) <> snd (seg_end s) ->
  (holds env (tool_z_cons 0 s) <->
   Rmin (snd (seg_start s)) (snd (seg_end s)) <= env 2%nat 0%nat <= Rmax (snd (seg_start s)) (snd (seg_end s))).
Proof. exact tool_z_ok. Qed.
Example C79_height_ex : snd (seg_start (RingSeg (0, 0) 1 2 (1, 0, 0) (0, 1, 1))) <> snd (seg_end (RingSeg (0, 0) 1 2 (1, 0, 0) (0, 1, 1))).
Proof. cbn. lra. Qed.
Print Assumptions C79_height.

(* a segment at constant height puts no constraint on the height at all *)
Theorem C79_level_refuted : exists s env, snd (seg_start s) = snd (seg_end s) /\ holds env (tool_segment_constraints s) /\
  snd (seg_end s) + 100 < env 2%nat 0%nat.
Proof. 
  exists (RingSeg (0, 0) 1 2 (1, 0, 0) (0, 1, 0)), (fun i o => match i with 0%nat => 3/2 | 1%nat => 0 | _ => 200 end).
  split; [reflexivity|]. split; [|cbn; lra]. unfold tool_segment_constraints. apply holds_app. split.
  - apply tool_ring_ok; [lra|lra|]. replace ((3/2 - 0) ^ 2 + (0 - 0) ^ 2) with ((3/2) ^ 2) by ring.
    rewrite sqrt_pow2 by lra. lra.
  - rewrite tool_z_free_in_plane by reflexivity. apply holds_nil.
 Qed.
Print Assumptions C79_level_refuted.
