(** Concrete trips: polynomials on one knot interval that satisfy the
    constraints. *)
From Coq Require Import Reals List Arith Bool ZArith Lia Lra.
From Verif Require Import Spline_Model Spline_Spec Spline_Proofs Splop_Model Splop_Spec
  Angle_Model Vehicle_Model Vehicle_Spec Vehicle_Proofs Wheel_Model Wheel_Proofs Quad_Model Lift_Model Lift_Spec Lift_Proofs Lift_Proofs2 Lift_Examples Bern_Spec Bern_Proofs Bern_Proofs2 Bern_Proofs3 Bern_Proofs4 Bern_Proofs5
  Trip_Model Trip_Spec Trip_Proofs Trip_Proofs2.
Import ListNotations.
Local Open Scope R_scope.

Ltac flat := cbn -[IZR gravity tan PI atan sqrt].
Ltac tabby := split; [reflexivity|split; [reflexivity|intros x Ix; match goal with |- call ?s _ = _ => let s' := eval hnf in s in change s with s' end; rewrite bern_call by (assumption || reflexivity); flat; field]].
Ltac inside := repeat (constructor; [flat; split; [try exact I; try lra|try lra]|]); constructor.
Ltac meets := repeat (constructor; [flat; split; [reflexivity|try field; try lra]|]); constructor.
Lemma half2 : forall c, tan (2 * atan c / 2) = c.
Proof. intros c. replace (2 * atan c / 2) with (atan c) by field. apply atan_right_inv || apply tan_atan. Qed.
Lemma angle2 : forall c, - PI < 2 * atan c < PI.
Proof. intros c. pose proof (atan_bound c). lra. Qed.

(** ** A Dubins vehicle that turns left while it brakes *)
Definition carX (e : R) : nat -> bspline := fun i => match i with
  | 0%nat => mkS (bern 1) [1; 0] | 1%nat => mkS (bern 2) [0; 1/2; 1/2]
  | 4%nat => mkS (bern 5) (map (fun a => a + e) [1; 4/5; 1/2; 3/10; 3/20; 0]) | 5%nat => mkS (bern 3) [0; 2/3; 1/3; 0]
  | 9%nat => mkS (bern 0) [1] | 10%nat => mkS (bern 0) [2] | 12%nat => Obst_Model.pos_spline 0 1 0 0 2 | 13%nat => Obst_Model.pos_spline 5 (-1) 0 0 2
  | _ => mkS (bern 0) [0] end.
Definition carP (e : R) : nat -> nat * list R := fun i => match i with
  | 0%nat => (1%nat, [1; -1]) | 1%nat => (2%nat, [0; 1; -(1/2)])
  | 4%nat => (5%nat, [1 + e; -1; -1; 2; -(5/4); 1/4]) | 5%nat => (3%nat, [0; 2; -3; 1])
  | 9%nat => (0%nat, [1]) | 10%nat => (0%nat, [2]) | 12%nat => (2%nat, [0; 2]) | 13%nat => (2%nat, [5; -2])
  | _ => (0%nat, [0]) end.
Lemma car_tab : forall e i, tab (carX e i) (carP e i).
Proof.
  intros e i. destruct i as [|[|[|[|[|[|[|[|[|[|[|[|[|[|i]]]]]]]]]]]]]]; try tabby.
  - split; [reflexivity|split; [reflexivity|]]. intros x Ix.
    transitivity (call (mkS (bern 2) (coeffs (Obst_Model.pos_spline 0 1 0 0 2))) x); [reflexivity|].
    rewrite bern_call by (assumption || reflexivity). unfold Obst_Model.pos_spline, Obst_Model.oseg, Obst_Model.back_x, Obst_Model.back_v. flat. field.
  - split; [reflexivity|split; [reflexivity|]]. intros x Ix.
    transitivity (call (mkS (bern 2) (coeffs (Obst_Model.pos_spline 5 (-1) 0 0 2))) x); [reflexivity|].
    rewrite bern_call by (assumption || reflexivity). unfold Obst_Model.pos_spline, Obst_Model.oseg, Obst_Model.back_x, Obst_Model.back_v. flat. field.
Qed.
Definition car_px : list R := [0; 2; -1; -(2/3); 1; -(1/2); 1/12].
Definition car_py : list R := [0; 0; 2; -2; 1/2].
Lemma car_position : forall e, exists p, wheel_position 0 (carX e) (0, 0) 0 2 = Some p /\ tab (fst p) (6%nat, car_px) /\ tab (snd p) (4%nat, car_py).
Proof.
  intros e. apply (position_tab (carX e) (carP e) 0 0 2 5 3 [1; -1; -1; 2; -(5/4); 1/4] [0; 2; -3; 1] car_px car_py (car_tab e)); try lra; try reflexivity; try (intros x; flat; field); flat; ring.
Qed.
Definition carQ (e : R) : nat -> nat * list R := fun i => match i with 2%nat => (6%nat, car_px) | 3%nat => (4%nat, car_py) | _ => carP e i end.
Lemma placed_tab : forall e p, tab (fst p) (6%nat, car_px) -> tab (snd p) (4%nat, car_py) -> forall i, tab (placed (carX e) p i) (carQ e i).
Proof. intros e p H1 H2 i. destruct i as [|[|[|[|i]]]]; [apply (car_tab e 0)|apply (car_tab e 1)|exact H1|exact H2|apply (car_tab e (4 + i))]. Qed.
Lemma car_solved : forall p, tab (fst p) (6%nat, car_px) -> tab (snd p) (4%nat, car_py) -> solved 0 (placed (carX 0) p) (dubins_constraints 2 (-2) 2 2).
Proof.
  intros p H1 H2. unfold dubins_constraints.
  apply solved_cons; [apply (solved_tab _ (carQ 0) (placed_tab 0 p H1 H2) _ 5 [-1; -(6/5); -(13/10); -(3/2); -(7/4); -2]); [reflexivity|reflexivity|reflexivity|reflexivity|intros x; unfold bsum; flat; field|inside]|].
  apply solved_cons; [apply (solved_tab _ (carQ 0) (placed_tab 0 p H1 H2) _ 1 [-1; 0]); [reflexivity|reflexivity|reflexivity|reflexivity|intros x; unfold bsum; flat; field|inside]|].
  apply solved_cons; [apply (solved_tab _ (carQ 0) (placed_tab 0 p H1 H2) _ 4 [-2; -(5/2); -(11/3); -(9/2); -5]); [reflexivity|reflexivity|reflexivity|reflexivity|intros x; unfold bsum; flat; field|inside]|].
  apply solved_cons; [apply (solved_tab _ (carQ 0) (placed_tab 0 p H1 H2) _ 4 [-6; -(11/2); -(17/3); -(11/2); -5]); [reflexivity|reflexivity|reflexivity|reflexivity|intros x; unfold bsum; flat; field|inside]|].
  apply solved_nil.
Qed.
Lemma car_starts : forall p, tab (fst p) (6%nat, car_px) -> tab (snd p) (4%nat, car_py) -> starts 0 (placed (carX 0) p) (0 / 2) (dubins_init 0 1 1 2).
Proof.
  intros p H1 H2. unfold dubins_init. replace (0 / 2) with 0 by field. rewrite tan_0. cbv zeta. apply (starts_tab _ (carQ 0) (placed_tab 0 p H1 H2)); [lra|meets].
Qed.
Lemma car_stops : forall p, tab (fst p) (6%nat, car_px) -> tab (snd p) (4%nat, car_py) -> stops 0 (placed (carX 0) p) (dubins_term (11/12, 1/2, 2 * atan (1/2))).
Proof.
  intros p H1 H2. unfold dubins_term. rewrite half2. apply (stops_tab _ (carQ 0) (placed_tab 0 p H1 H2)). meets.
Qed.
(** a hyperplane between it and a disc that comes down *)
Lemma car_safe : forall p, tab (fst p) (6%nat, car_px) -> tab (snd p) (4%nat, car_py) ->
  let s i := SV i 0 in
  let vs := map (fun c => veh_sx (s 8%nat) (s 9%nat) (s 10%nat) (fst c) (snd c) (1/10) (SN 1) (1/10) (s 11%nat) (s 2%nat) (s 3%nat) (s 1%nat) 0) [(1/2, 0); (-1/2, 0)] in
  let os := map (fun c => obs_sx (s 8%nat) (s 9%nat) (s 10%nat) (fst c) (snd c) (1/2) (s 12%nat) (s 13%nat) (SN 1) (SN 0) (SN 1)) [(0, 0)] in
  solved 0 (placed (carX 0) p) (le0 (norm_sx (s 8%nat) (s 9%nat)) :: map le0 vs ++ map le0 os).
Proof.
  intros p H1 H2. cbn [map app fst snd].
  apply solved_cons; [apply (solved_tab _ (carQ 0) (placed_tab 0 p H1 H2) _ 0 [0]); [reflexivity|reflexivity|reflexivity|reflexivity|intros x; unfold bsum; flat; field|inside]|].
  apply solved_cons; [apply (solved_tab _ (carQ 0) (placed_tab 0 p H1 H2) _ 8 [-(9/5); -(67/40); -(437/280); -(409/280); -(1889/1400); -(87/70); -(163/140); -(9/8); -(9/8)]); [reflexivity|reflexivity|reflexivity|reflexivity|intros x; unfold bsum; flat; field|inside]|].
  apply solved_cons; [apply (solved_tab _ (carQ 0) (placed_tab 0 p H1 H2) _ 8 [-(9/5); -(77/40); -(81/40); -(589/280); -(427/200); -(299/140); -(149/70); -(17/8); -(17/8)]); [reflexivity|reflexivity|reflexivity|reflexivity|intros x; unfold bsum; flat; field|inside]|].
  apply solved_cons; [apply (solved_tab _ (carQ 0) (placed_tab 0 p H1 H2) _ 1 [-(5/2); -(1/2)]); [reflexivity|reflexivity|reflexivity|reflexivity|intros x; unfold bsum; flat; field|inside]|].
  apply solved_nil.
Qed.
(** exact substitution *)
Lemma car_exact : solved 0 (carX 0) dubins_exact_substitution.
Proof.
  unfold dubins_exact_substitution.
  apply solved_cons; [apply (solved_tab _ (carP 0) (car_tab 0) _ 0 [0]); [reflexivity|reflexivity|reflexivity|reflexivity|intros x; unfold bsum; flat; field|inside]|].
  apply solved_cons; [apply (solved_tab _ (carP 0) (car_tab 0) _ 0 [0]); [reflexivity|reflexivity|reflexivity|reflexivity|intros x; unfold bsum; flat; field|inside]|].
  apply solved_nil.
Qed.
(** the velocities a little off: 1/2000 *)
Definition car_xs : list R := [0; 2001/1000; -1; -(2/3); 1; -(1/2); 1/12].
Lemma car_substitute : tab (fst (wheel_substitute (carX (1/2000)) (0, 0) 0 2)) (6%nat, car_xs) /\ tab (snd (wheel_substitute (carX (1/2000)) (0, 0) 0 2)) (4%nat, car_py).
Proof.
  split; cbn [wheel_substitute fst snd];
    [apply (integrate_tab _ 5 (snd (carP (1/2000) 4)))|apply (integrate_tab _ 3 (snd (carP (1/2000) 5)))]; try lra;
    try (apply (car_tab (1/2000) 4)); try (apply (car_tab (1/2000) 5)); try (intros x; flat; field); flat; ring.
Qed.
Definition carZ : nat -> nat * list R := fun i => match i with 6%nat => (6%nat, car_xs) | 7%nat => (4%nat, car_py) | _ => carQ (1/2000) i end.
Lemma substitute_tab : forall p, tab (fst p) (6%nat, car_px) -> tab (snd p) (4%nat, car_py) ->
  forall i, tab (placed_substitute (carX (1/2000)) p (wheel_substitute (carX (1/2000)) (0, 0) 0 2) i) (carZ i).
Proof.
  intros p H1 H2 i. do 6 (destruct i as [|i]; [apply (placed_tab (1/2000) p H1 H2)|]).
  destruct i as [|[|i]]; [apply car_substitute|apply car_substitute|apply (placed_tab (1/2000) p H1 H2 (8 + i))].
Qed.
Lemma car_close : forall p, tab (fst p) (6%nat, car_px) -> tab (snd p) (4%nat, car_py) ->
  solved 0 (placed_substitute (carX (1/2000)) p (wheel_substitute (carX (1/2000)) (0, 0) 0 2)) (wheel_substitution (1/1000)).
Proof.
  intros p H1 H2. unfold wheel_substitution.
  apply solved_cons; [apply (solved_tab _ carZ (substitute_tab p H1 H2) _ 1 [0; 1/1000]); [reflexivity|reflexivity|reflexivity|reflexivity|intros x; unfold bsum; flat; field|inside]|].
  apply solved_cons; [apply (solved_tab _ carZ (substitute_tab p H1 H2) _ 0 [0]); [reflexivity|reflexivity|reflexivity|reflexivity|intros x; unfold bsum; flat; field|inside]|].
  apply solved_nil.
Qed.
Lemma car_close_stops : forall p, tab (fst p) (6%nat, car_px) -> tab (snd p) (4%nat, car_py) ->
  stops 0 (placed_substitute (carX (1/2000)) p (wheel_substitute (carX (1/2000)) (0, 0) 0 2)) (dubins_term_substitute (2753/3000, 1/2, 2 * atan (1/2))).
Proof. intros p H1 H2. unfold dubins_term_substitute. rewrite half2. apply (stops_tab _ carZ (substitute_tab p H1 H2)). meets. Qed.
