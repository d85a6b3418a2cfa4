(** From constraints on coefficients to the whole motion (C108-C111). *)
From Coq Require Import String Reals List Arith Bool ZArith Lia Lra.
From Verif Require Import Spline_Model Spline_Spec Spline_Proofs Splop_Model Splop_Spec Splop_Proofs4 Vehicle_Model Vehicle_Spec Vehicle_Proofs2
  Lift_Model Lift_Spec Lift_Proofs Lift_Proofs2 Lift_Proofs3 Lift_Proofs4 Lift_Proofs5 Lift_Examples Lift_Examples2 Geom_Spec Geom_Proofs.
From Verif Require Obst_Model Obst_Spec.
Import ListNotations.
Local Open Scope R_scope.

Definition X_skip (i : nat) : bspline := mkS hbasis [5; -1; -1; -1; -1].

(* if the coefficients satisfy a list of constraints, the values do at all times *)
Theorem C108_exact : forall X cs, (forall c, In c cs -> fits X (cexpr c) /\ mentions (cexpr c) = true) ->
  solved 0 X cs -> forall x, 0 <= x <= 1 -> holds (jets X x) cs.
Proof. exact lift_exact. Qed.
Example C108_exact_ex : holds (jets X_two (1/3)) [le0 (veh_sx (SV 2 0) (SV 3 0) (SV 4 0) 0 0 (1/2) (SN 1) (1/10) (SN 0) (SV 0 0) (SV 1 0) (SN 0) 0)].
Proof.
  apply C108_exact; [|intros c [<-|[]]; apply two_solved; right; left; reflexivity|lra].
  intros c [<-|[]]. split; [|reflexivity]. pose proof X_two_fits as F. unfold le0, veh_sx. cbn [cexpr fits]. cbn [fits] in F. fitall F. Qed.
Print Assumptions C108_exact.

(* also with rounding, when splines are only combined with numbers *)
Theorem C108_plain : forall tol X cs, 0 <= tol ->
  (forall c, In c cs -> fits X (cexpr c) /\ mentions (cexpr c) = true /\ plain (cexpr c) = true) ->
  solved tol X cs -> forall x, 0 <= x <= 1 -> holds (jets X x) cs.
Proof. exact lift_plain. Qed.
Example C108_plain_ex : holds (jets X_hol (1/3)) [le0 (- SV 0 1 + SN (2 * (-1/2)))].
Proof.
  apply (C108_plain code_tol); [unfold code_tol; lra| |intros c [<-|[]]; apply hol_solved; left; reflexivity|lra].
  intros c [<-|[]]. split; [|split; reflexivity]. split; [|exact Logic.I]. destruct (X_hol_ok 0 ltac:(lia)) as (A & B & _). split; [exact A|rewrite B; lia]. Qed.
Print Assumptions C108_plain.

(* and within an explicit distance in general *)
Theorem C108_close : forall tol X c x, 0 <= tol -> fits X (cexpr c) -> mentions (cexpr c) = true ->
  0 <= x <= 1 -> solved tol X [c] ->
  match clo c with None => True | Some l => l - drift tol X (cexpr c) <= sval (jets X x) (cexpr c) end /\
  sval (jets X x) (cexpr c) <= chi c + drift tol X (cexpr c).
Proof. exact lift_close. Qed.
Example C108_close_ex : sval (jets X_norm (1/3)) (SV 0 1 ^ 2 + SV 1 1 ^ 2 - SN (10 ^ 2 * (1/2) ^ 2))%sx
  <= 0 + drift 0 X_norm (SV 0 1 ^ 2 + SV 1 1 ^ 2 - SN (10 ^ 2 * (1/2) ^ 2))%sx.
Proof.
  pose proof (X_norm_unit 0) as [A B]. pose proof (X_norm_unit 1) as [C D].
  apply (C108_close 0 X_norm (le0 (SV 0 1 ^ 2 + SV 1 1 ^ 2 - SN (10 ^ 2 * (1/2) ^ 2))%sx) (1/3)); [lra| |reflexivity|lra|].
  - unfold le0. cbn [cexpr fits]. split; [split; (split; [split; [assumption|lia]|lia])|exact Logic.I].
  - intros c [<-|[]]. apply norm_solved. left. reflexivity. Qed.
Print Assumptions C108_close.

(* such expressions never raise *)
Theorem C108_builds : forall tol X e, fits X e -> plain e = true -> exists o, build tol X e = Some o.
Proof. exact plain_builds. Qed.
Example C108_builds_ex : exists o, build code_tol X_hol (- SV 0 1 + SN 3)%sx = Some o.
Proof. apply C108_builds; [|reflexivity]. split; [|exact Logic.I]. destruct (X_hol_ok 0 ltac:(lia)) as (A & B & _). split; [exact A|rewrite B; lia]. Qed.
Print Assumptions C108_builds.

(* a constraint on a plain number is ignored *)
Theorem C108_number_refuted : exists X c, solved code_tol X [c] /\ forall x, ~ holds (jets X x) [c].
Proof. exact number_refuted. Qed.
Print Assumptions C108_number_refuted.

(* the converse fails: values within bounds, coefficients not *)
Theorem C108_stricter_refuted : exists X, on_unit (X 0%nat) /\ ~ solved code_tol X [le0 (SV 0 0)] /\
  forall x, 0 <= x <= 1 -> holds (jets X x) [le0 (SV 0 0)].
Proof. exact stricter_refuted. Qed.
Print Assumptions C108_stricter_refuted.

(* skipping s0 coefficients at the start and s1 at the end: the constraints hold between the knots named here *)
Theorem C109_skip : forall s0 s1 tol X cs x, 0 <= tol -> (0 < s0 + s1)%nat -> 0 <= x <= 1 ->
  (forall c, In c cs -> fits X (cexpr c) /\ mentions (cexpr c) = true /\ plain (cexpr c) = true) ->
  solved_skip (Some (s0, s1)) tol X cs ->
  (forall c s, In c cs -> build tol X (cexpr c) = Some (Spl s) ->
     (s0 + s1 < length (coeffs s))%nat /\
     (s0 = 0%nat \/ nth (s0 + degree (sbasis s)) (knots (sbasis s)) 0 < x) /\
     (s1 = 0%nat \/ x <= nth (length (coeffs s) - s1) (knots (sbasis s)) 0)) ->
  holds (jets X x) cs.
Proof. exact lift_skip. Qed.
Example C109_skip_ex : holds (jets X_skip (3/4)) [le0 (SV 0 0)].
Proof.
  assert (U : on_unit (X_skip 0)) by (split; [exact hbasis_clamped|reflexivity]).
  apply (C109_skip 1 0 code_tol); [unfold code_tol; lra|lia|lra| | |].
  - intros c [<-|[]]. split; [split; [exact U|lia]|split; reflexivity].
  - intros c [<-|[]]. eexists. split; [reflexivity|]. intros v Hv. cbn in Hv. split; [exact Logic.I|]. cbn [le0 chi]. decompose [or] Hv; try contradiction; subst v; lra.
  - intros c s [<-|[]] E. cbn in E. injection E as <-. cbn. split; [lia|split; [right; lra|left; reflexivity]]. Qed.
Print Assumptions C109_skip.

(* not in the skipped intervals *)
Theorem C109_ends_refuted : exists X x, on_unit (X 0%nat) /\ 0 <= x <= 1 /\
  solved_skip (Some (1, 0)%nat) code_tol X [le0 (SV 0 0)] /\ ~ holds (jets X x) [le0 (SV 0 0)].
Proof. exact skip_refuted. Qed.
Print Assumptions C109_ends_refuted.

(* skip=[0, 0] drops every coefficient *)
Theorem C109_zero_refuted : exists X x, on_unit (X 0%nat) /\ 0 <= x <= 1 /\
  solved_skip (Some (0, 0)%nat) code_tol X [le0 (SV 0 0)] /\ ~ holds (jets X x) [le0 (SV 0 0)].
Proof. exact skip_zero_refuted. Qed.
Print Assumptions C109_zero_refuted.

(* a solution of the point-to-point problem of the holonomic vehicle is a trip from the start to the goal within all limits *)
Theorem C110_trip : forall tol b T t0 state input goal X cs, 0 <= tol -> 0 < T -> 0 <= t0 <= T ->
  (forall i, (i < 2)%nat -> on_unit (X i) /\ degree (sbasis (X i)) = 3%nat /\
     forall t, 0 < t < 1 -> mult_le (sbasis (X i)) t 1) ->
  holonomic_constraints "norm_inf" b T = Some cs -> solved tol X cs ->
  starts tol X (t0 / T) (holonomic_init state input T) -> stops tol X (holonomic_term goal) ->
  let L := holonomic_limits b in
  let p i t := call (X i) (t / T) in
  exists v a : nat -> R -> R,
    (p 0%nat t0, p 1%nat t0) = state /\ (v 0%nat t0, v 1%nat t0) = input /\
    (p 0%nat T, p 1%nat T) = goal /\ (forall i, (i < 2)%nat -> v i T = 0 /\ a i T = 0) /\
    forall t, 0 <= t <= T ->
      (forall i, (i < 2)%nat -> deriv_in 0 T (p i) t (v i t) /\ deriv_in 0 T (v i) t (a i t)) /\
      vxmin L <= v 0%nat t <= vxmax L /\ vymin L <= v 1%nat t <= vymax L /\
      axmin L <= a 0%nat t <= axmax L /\ aymin L <= a 1%nat t <= aymax L.
Proof. exact holonomic_trip. Qed.
Example C110_trip_ex : exists v a : nat -> R -> R,
  (call (X_hol 0) (0 / 2), call (X_hol 1) (0 / 2)) = (0, 1) /\ v 0%nat 0 = 3 / 20 /\ v 0%nat 2 = 0 /\
  forall t, 0 <= t <= 2 -> deriv_in 0 2 (fun t => call (X_hol 0) (t / 2)) t (v 0%nat t) /\ - (1/2) <= v 0%nat t <= 1/2 /\ -1 <= a 0%nat t <= 1.
Proof.
  destruct (C110_trip code_tol no_bounds 2 0 (0, 1) (3/20, 0) (1/20, 1) X_hol _ ltac:(unfold code_tol; lra) ltac:(lra) ltac:(lra) X_hol_ok eq_refl
    hol_solved hol_starts hol_stops) as (v & a & P0 & V0 & PT & VT & ALL).
  exists v, a. split; [exact P0|]. split; [injection V0; intros _ K; exact K|]. split; [apply (VT 0%nat); lia|].
  intros t Ht. destruct (ALL t Ht) as (D & L1 & _ & L3 & _). split; [apply (D 0%nat); lia|].
  unfold holonomic_limits, no_bounds, dflt in L1, L3. cbn in L1, L3. lra. Qed.
Print Assumptions C110_trip.

(* with the two-norm the speed and acceleration limits hold at all times up to the rounding of small entries *)
Theorem C110_two_norm : forall tol b T X cs, 0 <= tol -> 0 < T ->
  (forall i, (i < 2)%nat -> on_unit (X i) /\ (2 <= degree (sbasis (X i)))%nat) ->
  holonomic_constraints "norm_2" b T = Some cs -> solved tol X cs ->
  let vm := dflt (b_vmax b) (1/2) in let am := dflt (b_amax b) 1 in
  let speed := (SV 0 1 ^ 2 + SV 1 1 ^ 2 - SN (T ^ 2 * vm ^ 2))%sx in
  let pull := (SV 0 2 ^ 2 + SV 1 2 ^ 2 - SN (T ^ 4 * am ^ 2))%sx in
  forall t, 0 <= t <= T ->
  let v i := phys T (jets X (t / T) i) 1 in let a i := phys T (jets X (t / T) i) 2 in
  v 0%nat ^ 2 + v 1%nat ^ 2 <= vm ^ 2 + drift tol X speed / T ^ 2 /\
  a 0%nat ^ 2 + a 1%nat ^ 2 <= am ^ 2 + drift tol X pull / T ^ 4.
Proof. exact two_norm_trip. Qed.
Example C110_two_norm_ex : forall t, 0 <= t <= 10 ->
  phys 10 (jets X_norm (t / 10) 0%nat) 1 ^ 2 + phys 10 (jets X_norm (t / 10) 1%nat) 1 ^ 2 <= (1/2) ^ 2.
Proof.
  intros t Ht. destruct (C110_two_norm 0 no_bounds 10 X_norm _ ltac:(lra) ltac:(lra) (fun i _ => X_norm_unit i) eq_refl norm_solved t Ht) as [K _].
  rewrite drift_0 in K. unfold no_bounds in K. cbn [dflt b_vmax] in K.
  replace (0 / 10 ^ 2) with 0 in K by field. lra. Qed.
Print Assumptions C110_two_norm.

(* vehicle and obstacle are kept apart at all times *)
Theorem C111_safe : forall X a0 a1 b vchk rv sd eps x y tg off ochk ro px py cs sn w tau th phi,
  0 <= tau <= 1 ->
  (forall e, In e [a0; a1; b; eps; x; y; tg; px; py; cs; sn; w] -> fits X e) -> mentions a0 = true ->
  let at_ e := sval (jets X tau) e in
  let vs := map (fun c => veh_sx a0 a1 b (fst c) (snd c) rv (SN 1) sd eps x y tg off) vchk in
  let os := map (fun c => obs_sx a0 a1 b (fst c) (snd c) ro px py cs sn w) ochk in
  cos (th / 2) <> 0 -> at_ tg = tan (th / 2) ->
  0 < at_ w -> at_ cs = at_ w * cos phi -> at_ sn = at_ w * sin phi ->
  solved 0 X (le0 (norm_sx a0 a1) :: map le0 vs ++ map le0 os) ->
  forall p q, hull (map (world (at_ x, at_ y) th off) vchk) p -> hull (map (world (at_ px, at_ py) phi 0) ochk) q ->
  rv + ro + (sd - at_ eps) <= dist p q.
Proof. exact safe_exact. Qed.
Example C111_safe_ex : 1/2 + 1/2 + (1/10 - sval (jets X_disc (1/2)) (SV 5 0))
  <= dist (sval (jets X_disc (1/2)) (SV 0 0), sval (jets X_disc (1/2)) (SV 1 0)) (sval (jets X_disc (1/2)) (SV 6 0), sval (jets X_disc (1/2)) (SV 7 0)).
Proof.
  apply (C111_safe X_disc (SV 2 0) (SV 3 0) (SV 4 0) [(0, 0)] (1/2) (1/10) (SV 5 0) (SV 0 0) (SV 1 0) (SN 0) 0
     [(0, 0)] (1/2) (SV 6 0) (SV 7 0) (SN 1) (SN 0) (SN 1) (1/2) 0 0).
  - lra.
  - intros e He. repeat (destruct He as [<-|He]; [first [exact Logic.I | apply X_disc_fits]|]). destruct He.
  - reflexivity.
  - replace (0 / 2) with 0 by field. rewrite cos_0. lra.
  - replace (0 / 2) with 0 by field. rewrite tan_0. reflexivity.
  - cbn [sval]. lra.
  - cbn [sval]. rewrite cos_0. ring.
  - cbn [sval]. rewrite sin_0. ring.
  - intros c Hc. apply disc_solved. cbn in Hc. destruct Hc as [<-|[<-|[<-|[]]]]; [left|right; left|do 2 right; left]; reflexivity.
  - cbn [map]. match goal with |- hull [?w] ?p => replace w with p by (unfold world, moved, turned; cbn [fst snd]; rewrite cos_0, sin_0; f_equal; ring) end. apply (hull_vertex [_]). left. reflexivity.
  - cbn [map]. match goal with |- hull [?w] ?p => replace w with p by (unfold world, moved, turned; cbn [fst snd]; rewrite cos_0, sin_0; f_equal; ring) end. apply (hull_vertex [_]). left. reflexivity. Qed.
Print Assumptions C111_safe.

(* with rounding: up to explicit distances *)
Theorem C111_close : forall tol X a0 a1 b vchk rv sd eps x y tg off ochk ro px py cs sn w tau th phi,
  0 <= tol -> 0 <= tau <= 1 ->
  (forall e, In e [a0; a1; b; eps; x; y; tg; px; py; cs; sn; w] -> fits X e) -> mentions a0 = true ->
  let at_ e := sval (jets X tau) e in
  let vs := map (fun c => veh_sx a0 a1 b (fst c) (snd c) rv (SN 1) sd eps x y tg off) vchk in
  let os := map (fun c => obs_sx a0 a1 b (fst c) (snd c) ro px py cs sn w) ochk in
  let n := norm_sx a0 a1 in
  cos (th / 2) <> 0 -> at_ tg = tan (th / 2) ->
  0 < at_ w -> at_ cs = at_ w * cos phi -> at_ sn = at_ w * sin phi ->
  solved tol X (le0 n :: map le0 vs ++ map le0 os) ->
  forall p q, hull (map (world (at_ x, at_ y) th off) vchk) p -> hull (map (world (at_ px, at_ py) phi 0) ochk) q ->
  rv + ro + (sd - at_ eps) - drift_max tol X vs - drift_max tol X os / at_ w
    <= sqrt (1 + drift tol X n) * dist p q.
Proof. exact safe_close. Qed.
Example C111_close_ex : 1/2 + 1/2 + (1/10 - sval (jets X_disc 1) (SV 5 0))
    - drift_max 0 X_disc [veh_sx (SV 2 0) (SV 3 0) (SV 4 0) 0 0 (1/2) (SN 1) (1/10) (SV 5 0) (SV 0 0) (SV 1 0) (SN 0) 0]
    - drift_max 0 X_disc [obs_sx (SV 2 0) (SV 3 0) (SV 4 0) 0 0 (1/2) (SV 6 0) (SV 7 0) (SN 1) (SN 0) (SN 1)] / 1
  <= sqrt (1 + drift 0 X_disc (norm_sx (SV 2 0) (SV 3 0))) *
     dist (sval (jets X_disc 1) (SV 0 0), sval (jets X_disc 1) (SV 1 0)) (sval (jets X_disc 1) (SV 6 0), sval (jets X_disc 1) (SV 7 0)).
Proof.
  apply (C111_close 0 X_disc (SV 2 0) (SV 3 0) (SV 4 0) [(0, 0)] (1/2) (1/10) (SV 5 0) (SV 0 0) (SV 1 0) (SN 0) 0
     [(0, 0)] (1/2) (SV 6 0) (SV 7 0) (SN 1) (SN 0) (SN 1) 1 0 0).
  - lra.
  - lra.
  - intros e He. repeat (destruct He as [<-|He]; [first [exact Logic.I | apply X_disc_fits]|]). destruct He.
  - reflexivity.
  - replace (0 / 2) with 0 by field. rewrite cos_0. lra.
  - replace (0 / 2) with 0 by field. rewrite tan_0. reflexivity.
  - cbn [sval]. lra.
  - cbn [sval]. rewrite cos_0. ring.
  - cbn [sval]. rewrite sin_0. ring.
  - intros c Hc. apply disc_solved. cbn in Hc. destruct Hc as [<-|[<-|[<-|[]]]]; [left|right; left|do 2 right; left]; reflexivity.
  - cbn [map]. match goal with |- hull [?w] ?p => replace w with p by (unfold world, moved, turned; cbn [fst snd]; rewrite cos_0, sin_0; f_equal; ring) end. apply (hull_vertex [_]). left. reflexivity.
  - cbn [map]. match goal with |- hull [?w] ?p => replace w with p by (unfold world, moved, turned; cbn [fst snd]; rewrite cos_0, sin_0; f_equal; ring) end. apply (hull_vertex [_]). left. reflexivity. Qed.
Print Assumptions C111_close.

(* two vehicles are kept apart at all times *)
Theorem C111_vehicles : forall X a0 a1 b c1 r1 s1 e1 x1 y1 t1 o1 c2 r2 s2 e2 x2 y2 t2 o2 tau th1 th2,
  0 <= tau <= 1 ->
  (forall e, In e [a0; a1; b; e1; x1; y1; t1; e2; x2; y2; t2] -> fits X e) -> mentions a0 = true ->
  let at_ e := sval (jets X tau) e in
  cos (th1 / 2) <> 0 -> at_ t1 = tan (th1 / 2) -> cos (th2 / 2) <> 0 -> at_ t2 = tan (th2 / 2) ->
  solved 0 X (le0 (norm_sx a0 a1) ::
    map (fun c => le0 (veh_sx a0 a1 b (fst c) (snd c) r1 (SN 1) s1 e1 x1 y1 t1 o1)) c1 ++
    map (fun c => le0 (veh_sx (- a0) (- a1) (- b) (fst c) (snd c) r2 (SN 1) s2 e2 x2 y2 t2 o2)) c2) ->
  forall p q, hull (map (world (at_ x1, at_ y1) th1 o1) c1) p -> hull (map (world (at_ x2, at_ y2) th2 o2) c2) q ->
  (r1 + s1 - at_ e1) + (r2 + s2 - at_ e2) <= dist p q.
Proof. exact apart_exact. Qed.
Example C111_vehicles_ex : (1/2 + 1/10 - 0) + (1/2 + 1/10 - 0)
  <= dist (sval (jets X_two (1/2)) (SV 0 0), sval (jets X_two (1/2)) (SV 1 0)) (sval (jets X_two (1/2)) (SV 5 0), sval (jets X_two (1/2)) (SV 6 0)).
Proof.
  apply (C111_vehicles X_two (SV 2 0) (SV 3 0) (SV 4 0) [(0, 0)] (1/2) (1/10) (SN 0) (SV 0 0) (SV 1 0) (SN 0) 0
     [(0, 0)] (1/2) (1/10) (SN 0) (SV 5 0) (SV 6 0) (SN 0) 0 (1/2) 0 0).
  - lra.
  - intros e He. repeat (destruct He as [<-|He]; [first [exact Logic.I | apply X_two_fits]|]). destruct He.
  - reflexivity.
  - replace (0 / 2) with 0 by field. rewrite cos_0. lra.
  - replace (0 / 2) with 0 by field. rewrite tan_0. reflexivity.
  - replace (0 / 2) with 0 by field. rewrite cos_0. lra.
  - replace (0 / 2) with 0 by field. rewrite tan_0. reflexivity.
  - exact two_solved.
  - cbn [map]. match goal with |- hull [?w] ?p => replace w with p by (unfold world, moved, turned; cbn [fst snd]; rewrite cos_0, sin_0; f_equal; ring) end. apply (hull_vertex [_]). left. reflexivity.
  - cbn [map]. match goal with |- hull [?w] ?p => replace w with p by (unfold world, moved, turned; cbn [fst snd]; rewrite cos_0, sin_0; f_equal; ring) end. apply (hull_vertex [_]). left. reflexivity. Qed.
Print Assumptions C111_vehicles.

(* in space *)
Theorem C111_space : forall X a0 a1 a2 b vchk rv sd eps x y z ochk ro px py pz tau,
  0 <= tau <= 1 ->
  (forall e, In e [a0; a1; a2; b; eps; x; y; z; px; py; pz] -> fits X e) -> mentions a0 = true ->
  let at_ e := sval (jets X tau) e in
  solved 0 X (le0 (norm3_sx a0 a1 a2) ::
    map (fun c => le0 (veh3_sx a0 a1 a2 b c rv sd eps x y z)) vchk ++
    map (fun c => le0 (obs3_sx a0 a1 a2 b c ro px py pz)) ochk) ->
  forall p q, hull3 (map (plus3 (at_ x, at_ y, at_ z)) vchk) p -> hull3 (map (plus3 (at_ px, at_ py, at_ pz)) ochk) q ->
  rv + ro + (sd - at_ eps) <= dist3 p q.
Proof. exact safe3_exact. Qed.
Example C111_space_ex : 1/2 + 1/2 + (1/10 - 0)
  <= dist3 (sval (jets X_ball 1) (SV 1 0), sval (jets X_ball 1) (SV 1 0), sval (jets X_ball 1) (SV 0 0)) (sval (jets X_ball 1) (SV 1 0), sval (jets X_ball 1) (SV 1 0), sval (jets X_ball 1) (SV 4 0)).
Proof.
  apply (C111_space X_ball (SV 1 0) (SV 1 0) (SV 2 0) (SV 3 0) [(0, 0, 0)] (1/2) (1/10) (SN 0) (SV 1 0) (SV 1 0) (SV 0 0)
     [(0, 0, 0)] (1/2) (SV 1 0) (SV 1 0) (SV 4 0) 1).
  - lra.
  - intros e He. repeat (destruct He as [<-|He]; [first [exact Logic.I | apply X_ball_fits]|]). destruct He.
  - reflexivity.
  - exact ball_solved.
  - cbn [map]. match goal with |- hull3 [?w] ?p => replace w with p by (unfold plus3; cbn [fst snd]; f_equal; [f_equal|]; ring) end. apply (hull3_vertex [_]). left. reflexivity.
  - cbn [map]. match goal with |- hull3 [?w] ?p => replace w with p by (unfold plus3; cbn [fst snd]; f_equal; [f_equal|]; ring) end. apply (hull3_vertex [_]). left. reflexivity. Qed.
Print Assumptions C111_space.

(* the whole vehicle stays in the room at all times, whatever the rounding *)
Theorem C111_room : forall tol X room rx ry chk rad x y tau, 0 <= tol -> 0 <= tau <= 1 -> 0 <= rad ->
  fits X x -> fits X y -> mentions x = true -> mentions y = true -> plain x = true -> plain y = true ->
  solved tol X (flat_map (fun c => room_sx room rx ry (fst c) (snd c) rad x y) chk) ->
  let at_ e := sval (jets X tau) e in
  forall p, inflated (map (moved (at_ x, at_ y)) chk) rad p -> in_room room (rx, ry) p.
Proof. exact room_all. Qed.
Example C111_room_ex : in_room (-1, 2, (-1, 2)) (0, 0) (sval (jets X_disc (1/2)) (SV 0 0) + 1/4, sval (jets X_disc (1/2)) (SV 1 0)).
Proof.
  apply (C111_room code_tol X_disc (-1, 2, (-1, 2)) 0 0 [(0, 0)] (1/2) (SV 0 0) (SV 1 0) (1/2)); try reflexivity; try lra; try apply X_disc_fits.
  - unfold code_tol; lra.
  - intros c Hc. cbn in Hc. decompose [or] Hc; try contradiction; subst c; (eexists; split; [reflexivity|]);
      intros v Hv; cbn in Hv; (split; [exact Logic.I|]); cbn [le0 chi]; decompose [or] Hv; try contradiction; subst v; lra.
  - exists (sval (jets X_disc (1/2)) (SV 0 0), sval (jets X_disc (1/2)) (SV 1 0)). split.
    + cbn [map]. match goal with |- hull [?w] ?p => replace w with p by (unfold moved; cbn [fst snd]; f_equal; ring) end. apply (hull_vertex [_]). left. reflexivity.
    + unfold dist. cbn [fst snd]. match goal with |- sqrt ?a <= _ => replace a with ((1/4)^2) by (unfold Rsqr; field) end. rewrite <- Rsqr_pow2, sqrt_Rsqr; lra. Qed.
Print Assumptions C111_room.

(* the measured obstacle: distance at all times between the driven disc and the disc that moves as Newton says *)
Theorem C111_disc : forall tol X T t0 sd rv ro x v a,
  0 <= tol -> 0 < T -> 0 <= t0 <= T ->
  (forall i, (i < 6)%nat -> on_unit (X i)) ->
  X 6%nat = Obst_Model.pos_spline (fst x) (fst v) (fst a) t0 T ->
  X 7%nat = Obst_Model.pos_spline (snd x) (snd v) (snd a) t0 T ->
  let s i := SV i 0 in
  let n := norm_sx (s 2%nat) (s 3%nat) in
  let vc := veh_sx (s 2%nat) (s 3%nat) (s 4%nat) 0 0 rv (SN 1) sd (s 5%nat) (s 0%nat) (s 1%nat) (SN 0) 0 in
  let oc := obs_sx (s 2%nat) (s 3%nat) (s 4%nat) 0 0 ro (s 6%nat) (s 7%nat) (SN 1) (SN 0) (SN 1) in
  solved tol X (le0 n :: le0 vc :: le0 oc :: eps_cons sd (s 5%nat)) ->
  forall t, 0 <= t <= T ->
  let p i := call (X i) (t / T) in
  let o := (Obst_Spec.newton (fst x) (fst v) (fst a) (t - t0), Obst_Spec.newton (snd x) (snd v) (snd a) (t - t0)) in
  0 <= p 5%nat <= sd /\
  rv + ro + (sd - p 5%nat) - drift_max tol X [vc] - drift_max tol X [oc] <= sqrt (1 + drift tol X n) * dist (p 0%nat, p 1%nat) o.
Proof. exact disc_trip. Qed.
Example C111_disc_ex : forall t, 0 <= t <= 10 ->
  11 / 10 <= dist (call (X_disc 0) (t / 10), call (X_disc 1) (t / 10)) (Obst_Spec.newton 3 0 0 (t - 1), Obst_Spec.newton 0 (1/2) 0 (t - 1)).
Proof.
  intros t Ht. destruct (C111_disc 0 X_disc 10 1 (1/10) (1/2) (1/2) (3, 0) (0, 1/2) (0, 0) ltac:(lra) ltac:(lra) ltac:(lra)
    (fun i _ => X_disc_unit i) eq_refl eq_refl disc_solved t Ht) as [_ K].
  rewrite !drift_max_0, drift_0, Rplus_0_r, sqrt_1 in K. cbn [fst snd] in K.
  replace (call (X_disc 5) (t / 10)) with 0 in K; [lra|].
  symmetry. destruct (J_disc (t / 10) (unit_time t 10 ltac:(lra) Ht)) as (_ & _ & _ & _ & _ & E & _). exact E. Qed.
Print Assumptions C111_disc.
