(** Whole trips of the vehicles (C162-C171). *)
From Coq Require Import String.
From Coq Require Import Reals List Arith Lia Lra.
From Verif Require Import Spline_Model Spline_Spec Splop_Model Splop_Spec Angle_Model Vehicle_Model Vehicle_Spec Wheel_Model Quad_Model
  Geom_Model Geom_Spec Lift_Model Lift_Spec Bern_Spec Bern_Proofs Bern_Proofs4 Bern_Proofs5 Trip_Model Trip_Spec
  Trip_Proofs2 Trip_Proofs3 Trip_Proofs4 Trip_Proofs5 Trip_Proofs6 Trip_Proofs7 Trip_Examples Trip_Examples2.
From Verif Require Obst_Model Obst_Spec.
Import ListNotations.
Local Open Scope string_scope.
Local Open Scope list_scope.
Local Open Scope R_scope.
Local Ltac low T n := apply (tab_regular _ _ n T); cbn; lia.

(* the position splines start at the given position and move along the heading with the speed; with a tolerance of the operations up to their drift *)
Theorem C162_track : forall tol X x0 y0 t0 T p, 0 <= tol -> 0 < T -> 0 <= t0 <= T ->
  regular 0 (X 0%nat) -> regular 0 (X 1%nat) -> wheel_position tol X (x0, y0) t0 T = Some p ->
  let x t := call (fst p) (t / T) in let y t := call (snd p) (t / T) in
  let th t := 2 * atan (call (X 1%nat) (t / T)) in
  let V t := call (X 0%nat) (t / T) * (1 + call (X 1%nat) (t / T) ^ 2) in
  on_unit (fst p) /\ on_unit (snd p) /\ (x t0, y t0) = (x0, y0) /\
  exists vx vy : R -> R, forall t, 0 <= t <= T ->
    deriv_in 0 T x t (vx t) /\ deriv_in 0 T y t (vy t) /\
    Rabs (vx t - V t * cos (th t)) <= drift tol X til_dx_sx /\ Rabs (vy t - V t * sin (th t)) <= drift tol X til_dy_sx.
Proof. exact wheel_track. Qed.
Example C162_track_ex : exists p, wheel_position 0 (carX 0) (0, 0) 0 2 = Some p /\
  exists vx vy : R -> R, forall t, 0 <= t <= 2 -> deriv_in 0 2 (fun t => call (fst p) (t / 2)) t (vx t) /\
    Rabs (vx t - call (carX 0 0%nat) (t / 2) * (1 + call (carX 0 1%nat) (t / 2) ^ 2) * cos (2 * atan (call (carX 0 1%nat) (t / 2)))) <= drift 0 (carX 0) til_dx_sx.
Proof.
  destruct (car_position 0) as (p & E & P1 & P2). exists p. split; [exact E|].
  destruct (C162_track 0 (carX 0) 0 0 0 2 p) as (_ & _ & _ & vx & vy & M); try lra; try exact E; [low (car_tab 0 0) 0%nat|low (car_tab 0 1) 0%nat|].
  exists vx, vy. intros t It. destruct (M t It) as (M1 & _ & M3 & _). split; assumption.
Qed.
Print Assumptions C162_track.

(* a solved Dubins problem is a trip: the vehicle starts and ends as asked, moves along its heading, and keeps its limits; with a tolerance of the operations up to their drift *)
Theorem C163_trip : forall tol vmax wmin wmax T t0 x0 y0 th0 V0 w0 gx gy gth X p, 0 <= tol -> 0 < T -> 0 <= t0 <= T ->
  - PI < th0 < PI -> - PI < gth < PI ->
  regular 0 (X 0%nat) -> regular 1 (X 1%nat) -> wheel_position tol X (x0, y0) t0 T = Some p ->
  let Y := placed X p in let cs := dubins_constraints vmax wmin wmax T in
  solved tol Y cs -> starts tol Y (t0 / T) (dubins_init th0 V0 w0 T) -> stops tol Y (dubins_term (gx, gy, gth)) ->
  let x t := call (fst p) (t / T) in let y t := call (snd p) (t / T) in
  let th t := 2 * atan (call (X 1%nat) (t / T)) in
  let V t := call (X 0%nat) (t / T) * (1 + call (X 1%nat) (t / T) ^ 2) in
  let D := drift_max tol Y (map cexpr cs) in
  exists vx vy w : R -> R,
    (x t0, y t0, th t0) = (x0, y0, th0) /\ (V t0, w t0) = (V0, w0) /\
    (x T, y T, th T) = (gx, gy, gth) /\ (V T, w T) = (0, 0) /\
    forall t, 0 <= t <= T ->
      deriv_in 0 T x t (vx t) /\ deriv_in 0 T y t (vy t) /\ deriv_in 0 T th t (w t) /\
      Rabs (vx t - V t * cos (th t)) <= drift tol X til_dx_sx /\ Rabs (vy t - V t * sin (th t)) <= drift tol X til_dy_sx /\
      0 <= V t <= vmax + D /\ wmin - D / T <= w t <= wmax + D / T.
Proof. exact dubins_trip. Qed.
Example C163_trip_ex : exists p, wheel_position 0 (carX 0) (0, 0) 0 2 = Some p /\
  solved 0 (placed (carX 0) p) (dubins_constraints 2 (-2) 2 2) /\ starts 0 (placed (carX 0) p) (0 / 2) (dubins_init 0 1 1 2) /\
  stops 0 (placed (carX 0) p) (dubins_term (11/12, 1/2, 2 * atan (1/2))) /\ regular 0 (carX 0 0%nat) /\ regular 1 (carX 0 1%nat).
Proof.
  destruct (car_position 0) as (p & E & P1 & P2). exists p. split; [exact E|].
  split; [apply car_solved; assumption|]. split; [apply car_starts; assumption|]. split; [apply car_stops; assumption|].
  split; [low (car_tab 0 0) 0%nat|low (car_tab 0 1) 1%nat].
Qed.
Print Assumptions C163_trip.

(* exact operations: the motion is exactly that of the vehicle model *)
Theorem C163_exact : forall vmax wmin wmax T t0 x0 y0 th0 V0 w0 gx gy gth X p, 0 < T -> 0 <= t0 <= T ->
  - PI < th0 < PI -> - PI < gth < PI ->
  regular 0 (X 0%nat) -> regular 1 (X 1%nat) -> wheel_position 0 X (x0, y0) t0 T = Some p ->
  let Y := placed X p in
  solved 0 Y (dubins_constraints vmax wmin wmax T) -> starts 0 Y (t0 / T) (dubins_init th0 V0 w0 T) -> stops 0 Y (dubins_term (gx, gy, gth)) ->
  let x t := call (fst p) (t / T) in let y t := call (snd p) (t / T) in
  let th t := 2 * atan (call (X 1%nat) (t / T)) in
  let V t := call (X 0%nat) (t / T) * (1 + call (X 1%nat) (t / T) ^ 2) in
  exists w : R -> R,
    (x t0, y t0, th t0) = (x0, y0, th0) /\ (V t0, w t0) = (V0, w0) /\
    (x T, y T, th T) = (gx, gy, gth) /\ (V T, w T) = (0, 0) /\
    drives T x y th V w /\ forall t, 0 <= t <= T -> 0 <= V t <= vmax /\ wmin <= w t <= wmax.
Proof. exact dubins_trip_exact. Qed.
Example C163_exact_ex : exists p, wheel_position 0 (carX 0) (0, 0) 0 2 = Some p /\ call (fst p) 1 = 11/12 /\ call (snd p) 1 = 1/2.
Proof.
  destruct (car_position 0) as (p & E & P1 & P2). exists p. split; [exact E|].
  destruct (C163_exact 2 (-2) 2 2 0 0 0 0 1 1 (11/12) (1/2) (2 * atan (1/2)) (carX 0) p)
    as (w & _ & _ & Q & _); [lra|lra|pose proof PI_RGT_0; lra|apply angle2|low (car_tab 0 0) 0%nat|low (car_tab 0 1) 1%nat|exact E|apply car_solved; assumption|apply car_starts; assumption|apply car_stops; assumption|].
  replace (2 / 2) with 1 in Q by field. split; [exact (f_equal (fun q => fst (fst q)) Q)|exact (f_equal (fun q => snd (fst q)) Q)].
Qed.
Print Assumptions C163_exact.

(* between any two times the vehicle covers at most vmax times the time and turns at most at its rate; the trip cannot be shorter than that allows *)
Theorem C164_reach : forall vmax wmin wmax T t0 x0 y0 th0 V0 w0 gx gy gth X p, 0 < T -> 0 <= t0 <= T ->
  - PI < th0 < PI -> - PI < gth < PI ->
  regular 0 (X 0%nat) -> regular 1 (X 1%nat) -> wheel_position 0 X (x0, y0) t0 T = Some p ->
  let Y := placed X p in
  solved 0 Y (dubins_constraints vmax wmin wmax T) -> starts 0 Y (t0 / T) (dubins_init th0 V0 w0 T) -> stops 0 Y (dubins_term (gx, gy, gth)) ->
  let x t := call (fst p) (t / T) in let y t := call (snd p) (t / T) in
  let th t := 2 * atan (call (X 1%nat) (t / T)) in
  (forall s t, 0 <= s -> s <= t -> t <= T ->
     gap (x s, y s) (x t, y t) <= vmax * (t - s) /\ wmin * (t - s) <= th t - th s <= wmax * (t - s)) /\
  gap (x0, y0) (gx, gy) <= vmax * (T - t0) /\ wmin * (T - t0) <= gth - th0 <= wmax * (T - t0).
Proof. exact dubins_reach. Qed.
Example C164_reach_ex : gap (0, 0) (11/12, 1/2) <= 2 * (2 - 0).
Proof.
  destruct (car_position 0) as (p & E & P1 & P2).
  destruct (C164_reach 2 (-2) 2 2 0 0 0 0 1 1 (11/12) (1/2) (2 * atan (1/2)) (carX 0) p)
    as (_ & Q & _); [lra|lra|pose proof PI_RGT_0; lra|apply angle2|low (car_tab 0 0) 0%nat|low (car_tab 0 1) 1%nat|exact E|apply car_solved; assumption|apply car_starts; assumption|apply car_stops; assumption|].
  exact Q.
Qed.
Print Assumptions C164_reach.

(* the distance bound holds for every motion along a heading *)
Theorem C164_gap : forall T x y th V w vm s t, drives T x y th V w -> (forall u, 0 <= u <= T -> Rabs (V u) <= vm) ->
  0 <= s -> s <= t -> t <= T -> gap (x s, y s) (x t, y t) <= vm * (t - s).
Proof. exact drives_gap. Qed.
Example C164_gap_ex : gap (0, 0) (1, 0) <= 2 * (1 - 0).
Proof.
  assert (D : drives 1 (fun t => t) (fun _ => 0) (fun _ => 0) (fun _ => 1) (fun _ => 0)).
  { intros t It. rewrite cos_0, sin_0, Rmult_1_l, Rmult_0_r. split; [apply Vehicle_Proofs.deriv_id|]. split; apply Vehicle_Proofs.deriv_const. }
  apply (C164_gap 1 (fun t => t) (fun _ => 0) (fun _ => 0) (fun _ => 1) (fun _ => 0) 2 0 1 D); try lra.
  intros u _. rewrite Rabs_R1. lra.
Qed.
Print Assumptions C164_gap.

(* a solved problem with a separating hyperplane keeps the whole body at the safety distance less the slack from the whole moving obstacle, at all times *)
Theorem C165_exact : forall T t0 x0 y0 X p vchk rv sd off ochk ro ox ov oa, 0 < T -> 0 <= t0 <= T ->
  regular 0 (X 0%nat) -> regular 0 (X 1%nat) -> wheel_position 0 X (x0, y0) t0 T = Some p ->
  (forall i, (8 <= i < 12)%nat -> on_unit (X i)) ->
  X 12%nat = Obst_Model.pos_spline (fst ox) (fst ov) (fst oa) t0 T ->
  X 13%nat = Obst_Model.pos_spline (snd ox) (snd ov) (snd oa) t0 T ->
  let s i := SV i 0 in
  let vs := map (fun c => veh_sx (s 8%nat) (s 9%nat) (s 10%nat) (fst c) (snd c) rv (SN 1) sd (s 11%nat) (s 2%nat) (s 3%nat) (s 1%nat) off) vchk in
  let os := map (fun c => obs_sx (s 8%nat) (s 9%nat) (s 10%nat) (fst c) (snd c) ro (s 12%nat) (s 13%nat) (SN 1) (SN 0) (SN 1)) ochk in
  solved 0 (placed X p) (le0 (norm_sx (s 8%nat) (s 9%nat)) :: map le0 vs ++ map le0 os) ->
  let x t := call (fst p) (t / T) in let y t := call (snd p) (t / T) in
  let th t := 2 * atan (call (X 1%nat) (t / T)) in
  let o t := (Obst_Spec.newton (fst ox) (fst ov) (fst oa) (t - t0), Obst_Spec.newton (snd ox) (snd ov) (snd oa) (t - t0)) in
  forall t, 0 <= t <= T -> forall P Q, hull (map (world (x t, y t) (th t) off) vchk) P -> hull (map (moved (o t)) ochk) Q ->
  rv + ro + (sd - call (X 11%nat) (t / T)) <= dist P Q.
Proof. exact wheel_safe_exact. Qed.
Example C165_exact_ex : exists p, wheel_position 0 (carX 0) (0, 0) 0 2 = Some p /\
  forall t, 0 <= t <= 2 -> forall P Q, hull (map (world (call (fst p) (t / 2), call (snd p) (t / 2)) (2 * atan (call (carX 0 1%nat) (t / 2))) 0) [(1/2, 0); (-1/2, 0)]) P ->
    hull (map (moved (Obst_Spec.newton 0 1 0 (t - 0), Obst_Spec.newton 5 (-1) 0 (t - 0))) [(0, 0)]) Q ->
    1/10 + 1/2 + (1/10 - call (carX 0 11%nat) (t / 2)) <= dist P Q.
Proof.
  destruct (car_position 0) as (p & E & P1 & P2). exists p. split; [exact E|].
  apply (C165_exact 2 0 0 0 (carX 0) p [(1/2, 0); (-1/2, 0)] (1/10) (1/10) 0 [(0, 0)] (1/2) (0, 5) (1, -1) (0, 0));
    [lra|lra|low (car_tab 0 0) 0%nat|low (car_tab 0 1) 0%nat|exact E| |reflexivity|reflexivity|apply car_safe; assumption].
  intros i _. apply (tab_regular _ _ 0 (car_tab 0 i)). lia.
Qed.
Print Assumptions C165_exact.

(* the same with a tolerance of the operations, up to their drift *)
Theorem C165_safe : forall tol T t0 x0 y0 X p vchk rv sd off ochk ro ox ov oa, 0 <= tol -> 0 < T -> 0 <= t0 <= T ->
  regular 0 (X 0%nat) -> regular 0 (X 1%nat) -> wheel_position tol X (x0, y0) t0 T = Some p ->
  (forall i, (8 <= i < 12)%nat -> on_unit (X i)) ->
  X 12%nat = Obst_Model.pos_spline (fst ox) (fst ov) (fst oa) t0 T ->
  X 13%nat = Obst_Model.pos_spline (snd ox) (snd ov) (snd oa) t0 T ->
  let Y := placed X p in let s i := SV i 0 in
  let n := norm_sx (s 8%nat) (s 9%nat) in
  let vs := map (fun c => veh_sx (s 8%nat) (s 9%nat) (s 10%nat) (fst c) (snd c) rv (SN 1) sd (s 11%nat) (s 2%nat) (s 3%nat) (s 1%nat) off) vchk in
  let os := map (fun c => obs_sx (s 8%nat) (s 9%nat) (s 10%nat) (fst c) (snd c) ro (s 12%nat) (s 13%nat) (SN 1) (SN 0) (SN 1)) ochk in
  solved tol Y (le0 n :: map le0 vs ++ map le0 os) ->
  let x t := call (fst p) (t / T) in let y t := call (snd p) (t / T) in
  let th t := 2 * atan (call (X 1%nat) (t / T)) in
  let o t := (Obst_Spec.newton (fst ox) (fst ov) (fst oa) (t - t0), Obst_Spec.newton (snd ox) (snd ov) (snd oa) (t - t0)) in
  forall t, 0 <= t <= T -> forall P Q, hull (map (world (x t, y t) (th t) off) vchk) P -> hull (map (moved (o t)) ochk) Q ->
  rv + ro + (sd - call (X 11%nat) (t / T)) - drift_max tol Y vs - drift_max tol Y os <= sqrt (1 + drift tol Y n) * dist P Q.
Proof. exact wheel_safe. Qed.
Example C165_safe_ex : exists p, wheel_position 0 (carX 0) (0, 0) 0 2 = Some p /\
  let s i := SV i 0 in
  let vs := map (fun c => veh_sx (s 8%nat) (s 9%nat) (s 10%nat) (fst c) (snd c) (1/10) (SN 1) (1/10) (s 11%nat) (s 2%nat) (s 3%nat) (s 1%nat) 0) [(1/2, 0); (-1/2, 0)] in
  let os := map (fun c => obs_sx (s 8%nat) (s 9%nat) (s 10%nat) (fst c) (snd c) (1/2) (s 12%nat) (s 13%nat) (SN 1) (SN 0) (SN 1)) [(0, 0)] in
  solved 0 (placed (carX 0) p) (le0 (norm_sx (s 8%nat) (s 9%nat)) :: map le0 vs ++ map le0 os).
Proof. destruct (car_position 0) as (p & E & P1 & P2). exists p. split; [exact E|]. apply car_safe; assumption. Qed.
Print Assumptions C165_safe.

(* a solved Bicycle (or AGV) problem is a trip: start and end as asked, speed, acceleration, steering angle and steering rate within the limits, turning as the steering angle says *)
Theorem C166_trip : forall sgn L vmax amax dmin dmax ddmin ddmax T t0 x0 y0 th0 d0 V0 gx gy gth X p,
  sgn = 1 \/ sgn = -1 -> 0 < L -> 0 < T -> 0 <= t0 <= T ->
  - PI < th0 < PI -> - PI < gth < PI -> - (PI/2) < d0 < PI/2 -> - (PI/2) < dmin < PI/2 -> - (PI/2) < dmax < PI/2 ->
  1/10000 < V0 / (1 + tan (th0 / 2) ^ 2) ->
  regular 1 (X 0%nat) -> regular 2 (X 1%nat) -> wheel_position 0 X (x0, y0) t0 T = Some p ->
  let Y := placed X p in
  solved 0 Y (bicycle_constraints sgn L vmax amax dmin dmax ddmin ddmax T) ->
  starts 0 Y (t0 / T) (bicycle_init sgn L th0 d0 V0 T) -> stops 0 Y (bicycle_term (gx, gy, gth) T) ->
  let x t := call (fst p) (t / T) in let y t := call (snd p) (t / T) in
  let th t := 2 * atan (call (X 1%nat) (t / T)) in
  let V t := call (X 0%nat) (t / T) * (1 + call (X 1%nat) (t / T) ^ 2) in
  exists w a delta rate : R -> R,
    (x t0, y t0, th t0) = (x0, y0, th0) /\ V t0 = V0 /\ delta t0 = d0 /\
    (x T, y T, th T) = (gx, gy, gth) /\ (V T, w T) = (0, 0) /\
    drives T x y th V w /\
    forall t, 0 <= t <= T -> deriv_in 0 T V t (a t) /\ 0 <= V t <= vmax /\ a t <= amax /\
      (0 < V t -> w t = sgn * (V t / L) * tan (delta t) /\ deriv_in 0 T delta t (rate t) /\
                  dmin <= delta t <= dmax /\ ddmin <= rate t <= ddmax).
Proof. exact bicycle_trip. Qed.
Example C166_trip_ex : exists p, wheel_position 0 biX (0, 0) 0 1 = Some p /\
  forall sgn, sgn = 1 \/ sgn = -1 -> solved 0 (placed biX p) (bicycle_constraints sgn 1 2 1 (- (PI / 4)) (PI / 4) (-1) 1 1) /\
  starts 0 (placed biX p) (0 / 1) (bicycle_init sgn 1 (2 * atan (1/3)) 0 (10/9) 1) /\ stops 0 (placed biX p) (bicycle_term (8/27, 2/9, 2 * atan (1/3)) 1) /\
  regular 1 (biX 0%nat) /\ regular 2 (biX 1%nat) /\ 1/10000 < 10/9 / (1 + tan (2 * atan (1/3) / 2) ^ 2).
Proof.
  destruct bi_position as (p & E & P1 & P2). exists p. split; [exact E|]. intros sgn [-> | ->];
    (split; [first [apply bi_solved|apply agv_solved]; assumption|]); (split; [first [apply bi_starts|apply agv_starts]; assumption|]);
    (split; [apply bi_stops; assumption|]); (split; [low (bi_tab 0) 1%nat|]); (split; [low (bi_tab 1) 2%nat|]);
    rewrite half2; lra.
Qed.
Print Assumptions C166_trip.

(* a solved Trailer problem is a trip: the vehicle as before, the trailer is pulled without slipping sideways by more than 1/1000, and keeps to the angle limits where both headings have the same sign *)
Theorem C167_trip : forall l tmin tmax vmax wmin wmax T t0 x0 y0 thtr0 th0 V0 w0 gx gy gth thT X p, 0 < l -> 0 < T -> 0 <= t0 <= T ->
  - PI < thtr0 < PI -> - PI < th0 < PI -> - PI < gth < PI -> - PI < tmin <= 0 -> 0 <= tmax < PI ->
  regular 1 (X 0%nat) -> regular 0 (X 1%nat) -> regular 1 (X 2%nat) -> wheel_position 0 (leading X) (x0, y0) t0 T = Some p ->
  let Y := trailed X p in
  solved 0 Y (trailer_constraints l tmin tmax vmax wmin wmax T) ->
  starts 0 Y (t0 / T) (trailer_init l thtr0 th0 V0 w0 T) -> stops 0 Y (trailer_term thT (gx, gy, gth)) ->
  let x t := call (fst p) (t / T) in let y t := call (snd p) (t / T) in
  let th t := 2 * atan (call (X 2%nat) (t / T)) in
  let V t := call (X 1%nat) (t / T) * (1 + call (X 2%nat) (t / T) ^ 2) in
  let thtr t := 2 * atan (call (X 0%nat) (t / T)) in
  let xtr t := x t - l * cos (thtr t) in let ytr t := y t - l * sin (thtr t) in
  exists w wtr : R -> R,
    (x t0, y t0, th t0, thtr t0) = (x0, y0, th0, thtr0) /\ (V t0, w t0) = (V0, w0) /\
    (x T, y T, th T) = (gx, gy, gth) /\ (V T, w T) = (0, 0) /\
    (forall g, thT = Some g -> - PI < g < PI -> thtr T = g) /\
    drives T x y th V w /\
    forall t, 0 <= t <= T ->
      0 <= V t <= vmax /\ wmin <= w t <= wmax /\
      deriv_in 0 T thtr t (wtr t) /\ Rabs (l * wtr t - V t * sin (th t - thtr t)) <= 1 / 1000 /\
      (exists vx vy, deriv_in 0 T xtr t vx /\ deriv_in 0 T ytr t vy /\
         Rabs (- sin (thtr t) * vx + cos (thtr t) * vy) <= 1 / 1000 /\
         cos (thtr t) * vx + sin (thtr t) * vy = V t * cos (th t - thtr t)) /\
      (0 <= th t * thtr t -> tmin <= th t - thtr t <= tmax).
Proof. exact trailer_trip. Qed.
Example C167_trip_ex : exists p, wheel_position 0 (leading trX) (0, 0) 0 1 = Some p /\
  solved 0 (trailed trX p) (trailer_constraints 1 (- (PI / 2)) (PI / 2) 2 (-2) 2 1) /\
  starts 0 (trailed trX p) (0 / 1) (trailer_init 1 (2 * atan (1/3)) (2 * atan (1/3)) (10/9) 0 1) /\
  stops 0 (trailed trX p) (trailer_term (Some (2 * atan (1/3))) (4/9, 1/3, 2 * atan (1/3))) /\
  regular 1 (trX 0%nat) /\ regular 0 (trX 1%nat) /\ regular 1 (trX 2%nat).
Proof.
  destruct tr_position as (p & E & P1 & P2). exists p. split; [exact E|].
  split; [apply tr_solved; assumption|]. split; [apply tr_starts; assumption|]. split; [apply tr_stops; assumption|].
  split; [low (tr_tab 0) 1%nat|]. split; [low (tr_tab 1) 0%nat|low (tr_tab 2) 1%nat].
Qed.
Print Assumptions C167_trip.

(* a solved Quadrotor3D problem without substitution is a trip: start and end as asked, accelerations as thrust and angles say, all limits kept *)
Theorem C168_trip : forall u1min u1max u2min u2max u3min u3max phimin phimax thmin thmax T t0 pos0 vel0 phi0 th0 f0 goal phiT thT X m,
  0 < T -> 0 <= t0 <= T -> - PI < phi0 < PI -> - PI < th0 < PI -> - PI < phiT < PI -> - PI < thT < PI ->
  - PI < phimin < PI -> - PI < phimax < PI -> - PI < thmin < PI -> - PI < thmax < PI ->
  regular 0 (X 0%nat) -> regular 1 (X 1%nat) -> regular 1 (X 2%nat) ->
  (forall k, (k < 3)%nat -> quad3d_axis 0 X pos0 vel0 t0 T k = Some (m k)) ->
  let Y := flown X m in
  solved 0 Y (quad3d_constraints u1min u1max u2min u2max u3min u3max phimin phimax thmin thmax T) ->
  starts 0 Y (t0 / T) (quad3d_init phi0 th0 f0) -> stops 0 Y (quad3d_stop (goal 0%nat) (goal 1%nat) (goal 2%nat) phiT thT) ->
  let pos k t := call (fst (m k)) (t / T) in let vel k t := call (snd (m k)) (t / T) in
  let phi t := 2 * atan (call (X 1%nat) (t / T)) in let th t := 2 * atan (call (X 2%nat) (t / T)) in
  let u1 t := call (X 0%nat) (t / T) * ((1 + call (X 1%nat) (t / T) ^ 2) * (1 + call (X 2%nat) (t / T) ^ 2)) in
  exists u2 u3 : R -> R,
    (forall k, (k < 3)%nat -> pos k t0 = pos0 k /\ vel k t0 = vel0 k) /\ (phi t0, th t0, u1 t0) = (phi0, th0, f0) /\
    (forall k, (k < 3)%nat -> pos k T = goal k /\ vel k T = 0) /\ (phi T, th T) = (phiT, thT) /\
    (phiT = 0 -> thT = 0 -> u1 T = gravity) /\
    forall t, 0 <= t <= T ->
      (forall k, (k < 3)%nat -> deriv_in 0 T (pos k) t (vel k t)) /\
      deriv_in 0 T (vel 0%nat) t (u1 t * sin (th t) * cos (phi t)) /\
      deriv_in 0 T (vel 1%nat) t (- u1 t * sin (phi t)) /\
      deriv_in 0 T (vel 2%nat) t (- gravity + u1 t * cos (phi t) * cos (th t)) /\
      deriv_in 0 T phi t (u2 t) /\ deriv_in 0 T th t (u3 t) /\
      u1min <= u1 t <= u1max /\ u2min <= u2 t <= u2max /\ u3min <= u3 t <= u3max /\
      phimin <= phi t <= phimax /\ thmin <= th t <= thmax.
Proof. exact quad3d_trip. Qed.
Example C168_trip_ex : exists m, (forall k, (k < 3)%nat -> quad3d_axis 0 q3X (fun _ => 0) q3v 0 1 k = Some (m k)) /\
  solved 0 (flown q3X m) (quad3d_constraints 5 15 (-1) 1 (-1) 1 (- (PI / 2)) (PI / 2) (- (PI / 2)) (PI / 2) 1) /\
  starts 0 (flown q3X m) (0 / 1) (quad3d_init 0 0 (gravity - 1)) /\ stops 0 (flown q3X m) (quad3d_stop 0 0 (1/6) 0 0) /\
  regular 0 (q3X 0%nat) /\ regular 1 (q3X 1%nat) /\ regular 1 (q3X 2%nat).
Proof.
  destruct q3_axes as (m & HM). exists m. split; [intros k K; apply (HM k K)|].
  assert (H : forall k, (k < 3)%nat -> tab (fst (m k)) ((2 + q3D k)%nat, q3Z k) /\ tab (snd (m k)) ((1 + q3D k)%nat, q3V k)) by (intros k K; apply (HM k K)).
  split; [apply q3_solved, H|]. split; [apply q3_starts, H|]. split; [apply q3_stops, H|].
  split; [low (q3_tab 0) 0%nat|]. split; [low (q3_tab 1) 1%nat|low (q3_tab 2) 1%nat].
Qed.
Print Assumptions C168_trip.

(* a solved Quadrotor problem is a trip of the planar quadrotor *)
Theorem C169_planar : forall u1min u1max u2min u2max T t0 px py vx vy ax ay gx gy X, 0 < T -> 0 <= t0 <= T -> 0 < u1min -> 0 <= u1max ->
  regular 3 (X 0%nat) -> regular 3 (X 1%nat) ->
  solved 0 X (quad_constraints u1min u1max u2min u2max T) ->
  starts 0 X (t0 / T) (quad_init (px, py) (vx, vy) (ax, ay) T) -> stops 0 X (quad_term (gx, gy)) ->
  let x t := call (X 0%nat) (t / T) in let y t := call (X 1%nat) (t / T) in
  exists dx dy ddx ddy theta u1 u2 : R -> R,
    [x t0; y t0; dx t0; dy t0; ddx t0; ddy t0] = [px; py; vx; vy; ax; ay] /\
    [x T; y T; dx T; dy T; ddx T; ddy T; theta T; u1 T; u2 T] = [gx; gy; 0; 0; 0; 0; 0; gravity; 0] /\
    forall t, 0 <= t <= T ->
      deriv_in 0 T x t (dx t) /\ deriv_in 0 T y t (dy t) /\ deriv_in 0 T dx t (ddx t) /\ deriv_in 0 T dy t (ddy t) /\
      ddx t = u1 t * sin (theta t) /\ ddy t = u1 t * cos (theta t) - gravity /\
      (0 < ddy t + gravity \/ ddx t <> 0 -> deriv_in 0 T theta t (u2 t)) /\
      u1min <= u1 t <= u1max /\ u2min <= u2 t <= u2max.
Proof. exact quad_trip. Qed.
Example C169_planar_ex : exists theta u1 : R -> R, u1 1 = gravity /\ theta 1 = 0 /\ forall t, 0 <= t <= 1 -> 5 <= u1 t <= 15.
Proof.
  destruct (C169_planar 5 15 (-1) 1 1 0 (1/20) 1 (-(1/4)) 0 1 0 0 1 qpX) as (dx & dy & ddx & ddy & theta & u1 & u2 & _ & E & M);
    [lra|lra|lra|lra|low (qp_tab 0) 3%nat|low (qp_tab 1) 3%nat|exact qp_solved|exact qp_starts|exact qp_stops|].
  exists theta, u1. split; [exact (f_equal (fun l => nth 7 l 0) E)|]. split; [exact (f_equal (fun l => nth 6 l 0) E)|].
  intros t It. destruct (M t It) as (_ & _ & _ & _ & _ & _ & _ & B & _). exact B.
Qed.
Print Assumptions C169_planar.

(* a solved SimpleQuadrotor3D problem is a trip of the quadrotor; the limits of the thrust, the angles and the rates hold while the vertical acceleration is above free fall, the rate of phi up to the larger of both rate limits *)
Theorem C169_simple : forall u1min u1max m2 m3 mphi mth T t0 px py pz vx vy vz phi0 th0 f0 gx gy gz X,
  0 < T -> 0 <= t0 <= T -> 0 <= u1min -> 0 <= u1max -> 0 <= m2 -> 0 <= m3 -> 0 <= mphi -> 0 <= mth ->
  0 < f0 -> - (PI/2) < phi0 < PI/2 -> - PI < th0 <= PI ->
  (forall i, (i < 3)%nat -> regular 3 (X i)) ->
  solved 0 X (simple3d_constraints u1min u1max (- m2) m2 (- m3) m3 (- mphi) mphi (- mth) mth T) ->
  starts 0 X (t0 / T) (simple3d_init (px, py, pz) (vx, vy, vz) phi0 th0 f0 T) -> stops 0 X (simple3d_term gx gy gz) ->
  let p i t := call (X i) (t / T) in
  exists (v : nat -> R -> R) (acc phi th u1 u2 u3 : R -> R),
    [p 0%nat t0; p 1%nat t0; p 2%nat t0; v 0%nat t0; v 1%nat t0; v 2%nat t0; phi t0; th t0; u1 t0] = [px; py; pz; vx; vy; vz; phi0; th0; f0] /\
    [p 0%nat T; p 1%nat T; p 2%nat T; v 0%nat T; v 1%nat T; v 2%nat T; phi T; th T; u1 T] = [gx; gy; gz; 0; 0; 0; 0; 0; gravity] /\
    forall t, 0 <= t <= T ->
      (forall i, (i < 3)%nat -> deriv_in 0 T (p i) t (v i t)) /\
      deriv_in 0 T (v 0%nat) t (u1 t * sin (th t) * cos (phi t)) /\
      deriv_in 0 T (v 1%nat) t (- u1 t * sin (phi t)) /\
      deriv_in 0 T (v 2%nat) t (acc t) /\ acc t = - gravity + u1 t * cos (phi t) * cos (th t) /\
      (0 < acc t + gravity ->
        deriv_in 0 T phi t (u2 t) /\ deriv_in 0 T th t (u3 t) /\
        u1min <= u1 t <= u1max /\ - Rmax m2 m3 <= u2 t <= Rmax m2 m3 /\ - m3 <= u3 t <= m3 /\
        - mphi <= phi t <= mphi /\ - mth <= th t <= mth).
Proof. exact simple3d_trip. Qed.
Example C169_simple_ex : (forall i, (i < 3)%nat -> regular 3 (qsX i)) /\
  solved 0 qsX (simple3d_constraints 5 15 (- (1)) 1 (- (4)) 4 (- (1)) 1 (- (1)) 1 1) /\
  starts 0 qsX (0 / 1) (simple3d_init (gravity / 20, 0, 0) (- gravity / 4, 0, 0) 0 (PI / 4) (gravity * sqrt 2) 1) /\ stops 0 qsX (simple3d_term 0 0 0).
Proof.
  split; [|split; [exact qs_solved|split; [exact qs_starts|exact qs_stops]]].
  intros i Hi. apply (tab_regular _ _ 3 (qs_tab i)). destruct i as [|i]; cbn; lia.
Qed.
Print Assumptions C169_simple.

(* Holonomic1D and Holonomic3D: start and end as asked, at rest at the end *)
Theorem C170_axes : forall tol n T t0 pos vel goal X, 0 < T -> 0 <= t0 <= T -> (forall i, (i < n)%nat -> regular 2 (X i)) ->
  starts tol X (t0 / T) (axes_init n pos vel T) -> stops tol X (axes_term n goal) ->
  let p i t := call (X i) (t / T) in
  let v i t := call (derivative (X i) 1) (t / T) / T in let a i t := call (derivative (X i) 2) (t / T) / T ^ 2 in
  forall i, (i < n)%nat ->
    (p i t0, v i t0) = (pos i, vel i) /\ (p i T, v i T, a i T) = (goal i, 0, 0) /\
    forall t, 0 <= t <= T -> deriv_in 0 T (p i) t (v i t) /\ deriv_in 0 T (v i) t (a i t).
Proof. exact axes_trip. Qed.
Example C170_axes_ex : call (hoX 2%nat) (1 / 1) = 1/4.
Proof.
  destruct (C170_axes 0 3 1 0 h3pos h3vel h3goal hoX) with (i := 2%nat) as (_ & E & _);
    [lra|lra|intros i Hi; apply (tab_regular _ _ 2 (ho_tab i)); destruct i as [|[|[|i]]]; cbn; lia|exact h3_starts|exact h3_stops|lia|].
  exact (f_equal (fun q => fst (fst q)) E).
Qed.
Print Assumptions C170_axes.

(* Holonomic1D keeps its limits at all times, for every tolerance of the operations *)
Theorem C170_one : forall tol vmin vmax amin amax T X, 0 <= tol -> 0 < T -> regular 2 (X 0%nat) ->
  solved tol X (holonomic1d_constraints vmin vmax amin amax T) ->
  forall t, 0 <= t <= T ->
  vmin <= call (derivative (X 0%nat) 1) (t / T) / T <= vmax /\ amin <= call (derivative (X 0%nat) 2) (t / T) / T ^ 2 <= amax.
Proof. exact holonomic1d_trip. Qed.
Example C170_one_ex : forall t, 0 <= t <= 1 -> -5 <= call (derivative (hoX 0%nat) 1) (t / 1) / 1 <= 5.
Proof. intros t It. apply (C170_one 0 (-5) 5 (-15) 15 1 hoX); [lra|lra|low (ho_tab 0) 2%nat|exact h1_solved|exact It]. Qed.
Print Assumptions C170_one.

(* Holonomic3D keeps its limits per axis, for every tolerance of the operations *)
Theorem C170_three : forall tol vmin vmax amin amax T X cs, 0 <= tol -> 0 < T -> (forall i, (i < 3)%nat -> regular 2 (X i)) ->
  holonomic3d_constraints "norm_inf" vmin vmax amin amax T = Some cs -> solved tol X cs ->
  forall t i, 0 <= t <= T -> (i < 3)%nat ->
  vmin <= call (derivative (X i) 1) (t / T) / T <= vmax /\ amin <= call (derivative (X i) 2) (t / T) / T ^ 2 <= amax.
Proof. exact holonomic3d_trip. Qed.
Example C170_three_ex : forall t, 0 <= t <= 1 -> -15 <= call (derivative (hoX 2%nat) 2) (t / 1) / 1 ^ 2 <= 15.
Proof.
  destruct h3_solved as (cs & E & S). intros t It. apply (C170_three 0 (-5) 5 (-15) 15 1 hoX cs); [lra|lra| |exact E|exact S|exact It|lia].
  intros i Hi. apply (tab_regular _ _ 2 (ho_tab i)); destruct i as [|[|[|i]]]; cbn; lia.
Qed.
Print Assumptions C170_three.

(* ... and those of the norm *)
Theorem C170_norm : forall vmin vmax amin amax T X cs, 0 < T -> 0 <= vmax -> 0 <= amax -> (forall i, (i < 3)%nat -> regular 2 (X i)) ->
  holonomic3d_constraints "norm_2" vmin vmax amin amax T = Some cs -> solved 0 X cs ->
  let v i t := call (derivative (X i) 1) (t / T) / T in let a i t := call (derivative (X i) 2) (t / T) / T ^ 2 in
  forall t, 0 <= t <= T ->
  sqrt (v 0%nat t ^ 2 + v 1%nat t ^ 2 + v 2%nat t ^ 2) <= vmax /\ sqrt (a 0%nat t ^ 2 + a 1%nat t ^ 2 + a 2%nat t ^ 2) <= amax.
Proof. exact holonomic3d_two_trip. Qed.
Example C170_norm_ex : exists cs, holonomic3d_constraints "norm_2" 0 5 0 15 1 = Some cs /\ solved 0 hoX cs /\ forall i, (i < 3)%nat -> regular 2 (hoX i).
Proof.
  destruct h3_two_solved as (cs & E & S). exists cs. split; [exact E|]. split; [exact S|].
  intros i Hi. apply (tab_regular _ _ 2 (ho_tab i)); destruct i as [|[|[|i]]]; cbn; lia.
Qed.
Print Assumptions C170_norm.

(* HolonomicOrient: start and end as asked, limits of velocity, acceleration and turning rate *)
Theorem C170_orient : forall vmin vmax amin amax wmin wmax T t0 px py th0 vx vy w0 gx gy gth X cs, 0 < T -> 0 <= t0 <= T ->
  - PI < th0 < PI -> - PI < gth < PI -> (forall i, (i < 3)%nat -> regular 2 (X i)) ->
  holonomicorient_constraints "norm_inf" vmin vmax amin amax wmin wmax T = Some cs -> solved 0 X cs ->
  starts 0 X (t0 / T) (holonomicorient_init (px, py, th0) (vx, vy, w0) T) -> stops 0 X (holonomicorient_term (gx, gy, gth)) ->
  let p i t := call (X i) (t / T) in let v i t := call (derivative (X i) 1) (t / T) / T in
  let a i t := call (derivative (X i) 2) (t / T) / T ^ 2 in
  let th t := 2 * atan (call (X 2%nat) (t / T)) in
  exists w : R -> R,
    [p 0%nat t0; p 1%nat t0; th t0] = [px; py; th0] /\ [v 0%nat t0; v 1%nat t0; w t0] = [vx; vy; w0] /\
    [p 0%nat T; p 1%nat T; th T] = [gx; gy; gth] /\ [v 0%nat T; v 1%nat T; w T] = [0; 0; 0] /\
    forall t, 0 <= t <= T ->
      deriv_in 0 T th t (w t) /\ wmin <= w t <= wmax /\
      forall i, (i < 2)%nat -> deriv_in 0 T (p i) t (v i t) /\ deriv_in 0 T (v i) t (a i t) /\
        vmin <= v i t <= vmax /\ amin <= a i t <= amax.
Proof. exact orient_trip. Qed.
Example C170_orient_ex : 2 * atan (call (hoX 2%nat) (1 / 1)) = 2 * atan (1/4).
Proof.
  destruct ho_solved as (cs & E & S).
  destruct (C170_orient (-5) 5 (-15) 15 (-3) 3 1 0 1 0 (2 * atan (1/2)) (-4) 0 (-(8/5)) 0 0 (2 * atan (1/4)) hoX cs) as (w & _ & _ & Q & _);
    [lra|lra|apply angle2|apply angle2| |exact E|exact S|exact ho_starts|exact ho_stops|].
  - intros i Hi. apply (tab_regular _ _ 2 (ho_tab i)); destruct i as [|[|[|i]]]; cbn; lia.
  - exact (f_equal (fun l => nth 2 l 0) Q).
Qed.
Print Assumptions C170_orient.

(* exact substitution: the position made of the extra variables is the integrated one *)
Theorem C171_exact : forall X x0 y0 t0 T p, 0 < T -> 0 <= t0 <= T ->
  regular 0 (X 0%nat) -> regular 0 (X 1%nat) -> regular 0 (X 4%nat) -> regular 0 (X 5%nat) ->
  wheel_position 0 X (x0, y0) t0 T = Some p -> solved 0 X dubins_exact_substitution ->
  let q := wheel_substitute X (x0, y0) t0 T in
  forall t, 0 <= t <= T -> call (fst q) (t / T) = call (fst p) (t / T) /\ call (snd q) (t / T) = call (snd p) (t / T).
Proof. exact wheel_substitution_exact. Qed.
Example C171_exact_ex : exists p, wheel_position 0 (carX 0) (0, 0) 0 2 = Some p /\
  call (fst (wheel_substitute (carX 0) (0, 0) 0 2)) (1 / 2) = call (fst p) (1 / 2).
Proof.
  destruct (car_position 0) as (p & E & P1 & P2). exists p. split; [exact E|].
  apply (C171_exact (carX 0) 0 0 0 2 p); [lra|lra|low (car_tab 0 0) 0%nat|low (car_tab 0 1) 0%nat|low (car_tab 0 4) 0%nat|low (car_tab 0 5) 0%nat|exact E|exact car_exact|lra].
Qed.
Print Assumptions C171_exact.

(* substitution that is not exact: the planned position is within eps of the real one per axis, the goal is met up to eps, and distances planned to be d are at least d less sqrt 2 eps *)
Theorem C171_close : forall eps X x0 y0 t0 T p, 0 <= eps -> 0 < T -> 0 <= t0 <= T ->
  regular 0 (X 0%nat) -> regular 0 (X 1%nat) -> regular 0 (X 4%nat) -> regular 0 (X 5%nat) ->
  wheel_position 0 X (x0, y0) t0 T = Some p ->
  let q := wheel_substitute X (x0, y0) t0 T in
  solved 0 (placed_substitute X p q) (wheel_substitution eps) ->
  let x t := call (fst p) (t / T) in let y t := call (snd p) (t / T) in
  let xs t := call (fst q) (t / T) in let ys t := call (snd q) (t / T) in
  (xs t0, ys t0) = (x0, y0) /\
  (forall gx gy gth, stops 0 (placed_substitute X p q) (dubins_term_substitute (gx, gy, gth)) ->
     (xs T, ys T) = (gx, gy) /\ Rabs (x T - gx) <= eps /\ Rabs (y T - gy) <= eps) /\
  forall t, 0 <= t <= T -> Rabs (xs t - x t) <= eps /\ Rabs (ys t - y t) <= eps /\
    forall th off vchk d Q, (forall P, hull (map (world (xs t, ys t) th off) vchk) P -> d <= dist P Q) ->
      forall P, hull (map (world (x t, y t) th off) vchk) P -> d - sqrt 2 * eps <= dist P Q.
Proof. exact wheel_substitution_close. Qed.
Example C171_close_ex : exists p, wheel_position 0 (carX (1/2000)) (0, 0) 0 2 = Some p /\ Rabs (call (fst p) (2 / 2) - (11/12 + 1/1000)) <= 1/1000.
Proof.
  destruct (car_position (1/2000)) as (p & E & P1 & P2). exists p. split; [exact E|].
  destruct (C171_close (1/1000) (carX (1/2000)) 0 0 0 2 p) as (_ & G & _);
    [lra|lra|lra|low (car_tab (1/2000) 0) 0%nat|low (car_tab (1/2000) 1) 0%nat|low (car_tab (1/2000) 4) 0%nat|low (car_tab (1/2000) 5) 0%nat|exact E|apply car_close; assumption|].
  destruct (G _ _ _ (car_close_stops p P1 P2)) as (_ & B & _). replace (11/12 + 1/1000) with (2753/3000) by field. exact B.
Qed.
Print Assumptions C171_close.

(* Quadrotor3D with its default substitution: the real position stays within 1/1000 of the planned one per axis and ends that close to the goal *)
Theorem C171_space : forall X pos0 vel0 t0 T m, 0 < T -> 0 <= t0 <= T ->
  regular 0 (X 0%nat) -> regular 0 (X 1%nat) -> regular 0 (X 2%nat) -> (forall k, (k < 3)%nat -> regular 0 (X (9 + k)%nat)) ->
  (forall k, (k < 3)%nat -> quad3d_axis 0 X pos0 vel0 t0 T k = Some (m k)) ->
  let q := quad3d_substitute X pos0 vel0 t0 T in let Z := flown_substitute X m q in
  solved 0 Z quad3d_substitution ->
  let pos k t := call (fst (m k)) (t / T) in let poss k t := call (fst (q k)) (t / T) in let vels k t := call (snd (q k)) (t / T) in
  (forall k t, (k < 3)%nat -> 0 <= t <= T -> Rabs (poss k t - pos k t) <= 1 / 1000 /\ deriv_in 0 T (poss k) t (vels k t)) /\
  forall goal phiT thT, stops 0 Z (quad3d_stop_substitute (goal 0%nat) (goal 1%nat) (goal 2%nat) phiT thT) ->
    forall k, (k < 3)%nat -> (poss k T, vels k T) = (goal k, 0) /\ Rabs (pos k T - goal k) <= 1 / 1000.
Proof. exact quad3d_substitution_close. Qed.
Example C171_space_ex : exists T u1max f0 X m, let Z := flown_substitute X m (quad3d_substitute X (fun _ => 0) (fun _ => 0) 0 T) in
  0 < T /\ (forall k, (k < 3)%nat -> quad3d_axis 0 X (fun _ => 0) (fun _ => 0) 0 T k = Some (m k)) /\
  solved 0 Z (quad3d_constraints 5 u1max (-1) 1 (-1) 1 (- (PI / 2)) (PI / 2) (- (PI / 2)) (PI / 2) T) /\ solved 0 Z quad3d_substitution /\
  starts 0 Z (0 / T) (quad3d_init 0 0 f0) /\ stops 0 Z (quad3d_stop_substitute 0 0 0 0 0).
Proof.
  destruct (quad3d_end_speed 1 ltac:(lra)) as (T & u & f & X & m & H). exists T, u, f, X, m. cbv zeta in *. tauto.
Qed.
Print Assumptions C171_space.

(* refuted: the real end velocity is not fixed at all; for every speed there is a solved problem whose planned velocity at the end is zero and whose real one is that speed *)
Theorem C171_end_speed_refuted : forall speed, 0 < speed -> exists T u1max f0 X m, 0 < T /\
  regular 0 (X 0%nat) /\ regular 1 (X 1%nat) /\ regular 1 (X 2%nat) /\ (forall k, (k < 3)%nat -> regular 0 (X (9 + k)%nat)) /\
  (forall k, (k < 3)%nat -> quad3d_axis 0 X (fun _ => 0) (fun _ => 0) 0 T k = Some (m k)) /\
  let Z := flown_substitute X m (quad3d_substitute X (fun _ => 0) (fun _ => 0) 0 T) in
  solved 0 Z (quad3d_constraints 5 u1max (-1) 1 (-1) 1 (- (PI / 2)) (PI / 2) (- (PI / 2)) (PI / 2) T) /\
  solved 0 Z quad3d_substitution /\ starts 0 Z (0 / T) (quad3d_init 0 0 f0) /\ stops 0 Z (quad3d_stop_substitute 0 0 0 0 0) /\
  call (snd (m 2%nat)) (T / T) = speed.
Proof. exact quad3d_end_speed. Qed.
Example C171_end_speed_ex : exists T u1max f0 X m, let Z := flown_substitute X m (quad3d_substitute X (fun _ => 0) (fun _ => 0) 0 T) in
  0 < T /\ solved 0 Z (quad3d_constraints 5 u1max (-1) 1 (-1) 1 (- (PI / 2)) (PI / 2) (- (PI / 2)) (PI / 2) T) /\ stops 0 Z (quad3d_stop_substitute 0 0 0 0 0) /\
  starts 0 Z (0 / T) (quad3d_init 0 0 f0) /\ call (snd (m 2%nat)) (T / T) = 7.
Proof.
  destruct (C171_end_speed_refuted 7 ltac:(lra)) as (T & u & f & X & m & H). exists T, u, f, X, m. cbv zeta in *. tauto.
Qed.
Print Assumptions C171_end_speed_refuted.
