(** More concrete trips. *)
From Coq Require Import String.
From Coq Require Import Reals List Arith Bool ZArith Lia Lra.
From Verif Require Import Spline_Model Spline_Spec Spline_Proofs Splop_Model Splop_Spec
  Angle_Model Vehicle_Model Vehicle_Spec Vehicle_Proofs Wheel_Model Wheel_Proofs Quad_Model Lift_Model Lift_Spec Lift_Proofs Lift_Proofs2 Lift_Examples Bern_Spec Bern_Proofs Bern_Proofs2 Bern_Proofs3 Bern_Proofs4 Bern_Proofs5
  Trip_Model Trip_Spec Trip_Proofs Trip_Proofs2 Trip_Examples.
Import ListNotations.
Local Open Scope R_scope.
Lemma tan_quarter : tan (PI / 2 / 2) = 1 /\ tan (- (PI / 2) / 2) = -1 /\ tan (PI / 4) = 1 /\ tan (- (PI / 4)) = -1 /\ tan (1/2 * (PI / 2)) = 1 /\ tan (1/2 * - (PI / 2)) = -1.
Proof.
  replace (PI / 2 / 2) with (PI / 4) by field. replace (- (PI / 2) / 2) with (- (PI / 4)) by field.
  replace (1/2 * (PI / 2)) with (PI / 4) by field. replace (1/2 * - (PI / 2)) with (- (PI / 4)) by field.
  rewrite tan_neg, tan_PI4. repeat split; ring.
Qed.
Ltac quarter := destruct tan_quarter as (TQ1 & TQ2 & TQ3 & TQ4 & TQ5 & TQ6); rewrite ?TQ1, ?TQ2, ?TQ3, ?TQ4, ?TQ5, ?TQ6.

(** ** A trailer behind a Dubins vehicle that brakes on a straight line *)
Definition trX : nat -> bspline := fun i => match i with 0%nat => mkS (bern 1) [1/3; 1/3] | 1%nat => mkS (bern 1) [1; 0] | 2%nat => mkS (bern 1) [1/3; 1/3] | _ => mkS (bern 0) [0] end.
Definition trP : nat -> nat * list R := fun i => match i with 0%nat => (1%nat, [1/3]) | 1%nat => (1%nat, [1; -1]) | 2%nat => (1%nat, [1/3]) | _ => (0%nat, [0]) end.
Lemma tr_tab : forall i, tab (trX i) (trP i).
Proof. intros i. destruct i as [|[|[|i]]]; tabby. Qed.
Definition tr_px : list R := [0; 8/9; -(4/9)].
Definition tr_py : list R := [0; 2/3; -(1/3)].
Lemma tr_position : exists p, wheel_position 0 (leading trX) (0, 0) 0 1 = Some p /\ tab (fst p) (4%nat, tr_px) /\ tab (snd p) (3%nat, tr_py).
Proof.
  apply (position_tab (leading trX) (fun i => trP (Datatypes.S i)) 0 0 1 3 2 [8/9; -(8/9)] [2/3; -(2/3)] tr_px tr_py (fun i => tr_tab (Datatypes.S i))); try lra; try reflexivity; try (intros x; flat; field); flat; ring.
Qed.
Definition trQ : nat -> nat * list R := fun i => match i with 3%nat => (4%nat, tr_px) | 4%nat => (3%nat, tr_py) | _ => trP i end.
Lemma trailed_tab : forall p, tab (fst p) (4%nat, tr_px) -> tab (snd p) (3%nat, tr_py) -> forall i, tab (trailed trX p i) (trQ i).
Proof. intros p H1 H2 i. destruct i as [|[|[|[|[|i]]]]]; [apply (tr_tab 0)|apply (tr_tab 1)|apply (tr_tab 2)|exact H1|exact H2|apply (tr_tab (5 + i))]. Qed.
Lemma tr_solved : forall p, tab (fst p) (4%nat, tr_px) -> tab (snd p) (3%nat, tr_py) -> solved 0 (trailed trX p) (trailer_constraints 1 (- (PI / 2)) (PI / 2) 2 (-2) 2 1).
Proof.
  intros p H1 H2. unfold trailer_constraints, trailer_own. quarter. unfold dubins_constraints. cbn [map app shift_con shift].
  apply solved_cons; [apply (solved_tab _ trQ (trailed_tab p H1 H2) _ 0 [-(1/1000)]); [reflexivity|reflexivity|reflexivity|reflexivity|intros x; unfold bsum; flat; field|inside]|].
  apply solved_cons; [apply (solved_tab _ trQ (trailed_tab p H1 H2) _ 0 [-(1/1000)]); [reflexivity|reflexivity|reflexivity|reflexivity|intros x; unfold bsum; flat; field|inside]|].
  apply solved_cons; [apply (solved_tab _ trQ (trailed_tab p H1 H2) _ 0 [-1]); [reflexivity|reflexivity|reflexivity|reflexivity|intros x; unfold bsum; flat; field|inside]|].
  apply solved_cons; [apply (solved_tab _ trQ (trailed_tab p H1 H2) _ 0 [-1]); [reflexivity|reflexivity|reflexivity|reflexivity|intros x; unfold bsum; flat; field|inside]|].
  apply solved_cons; [apply (solved_tab _ trQ (trailed_tab p H1 H2) _ 1 [-(8/9); -2]); [reflexivity|reflexivity|reflexivity|reflexivity|intros x; unfold bsum; flat; field|inside]|].
  apply solved_cons; [apply (solved_tab _ trQ (trailed_tab p H1 H2) _ 1 [-1; 0]); [reflexivity|reflexivity|reflexivity|reflexivity|intros x; unfold bsum; flat; field|inside]|].
  apply solved_cons; [apply (solved_tab _ trQ (trailed_tab p H1 H2) _ 0 [-(20/9)]); [reflexivity|reflexivity|reflexivity|reflexivity|intros x; unfold bsum; flat; field|inside]|].
  apply solved_cons; [apply (solved_tab _ trQ (trailed_tab p H1 H2) _ 0 [-(20/9)]); [reflexivity|reflexivity|reflexivity|reflexivity|intros x; unfold bsum; flat; field|inside]|].
  apply solved_nil.
Qed.
Lemma tr_starts : forall p, tab (fst p) (4%nat, tr_px) -> tab (snd p) (3%nat, tr_py) -> starts 0 (trailed trX p) (0 / 1) (trailer_init 1 (2 * atan (1/3)) (2 * atan (1/3)) (10/9) 0 1).
Proof.
  intros p H1 H2. unfold trailer_init, dubins_init. rewrite half2. cbv zeta. cbn [map shift].
  replace (0 / 1) with 0 by field. apply (starts_tab _ trQ (trailed_tab p H1 H2)); [lra|meets].
Qed.
Lemma tr_stops : forall p, tab (fst p) (4%nat, tr_px) -> tab (snd p) (3%nat, tr_py) -> stops 0 (trailed trX p) (trailer_term (Some (2 * atan (1/3))) (4/9, 1/3, 2 * atan (1/3))).
Proof.
  intros p H1 H2. unfold trailer_term, dubins_term. rewrite half2. cbn [map app shift fst snd]. apply (stops_tab _ trQ (trailed_tab p H1 H2)). meets.
Qed.
(** ** A bicycle that brakes smoothly *)
Definition biX : nat -> bspline := fun i => match i with 0%nat => mkS (bern 2) [1; 0; 0] | 1%nat => mkS (bern 2) [1/3; 1/3; 1/3] | _ => mkS (bern 0) [0] end.
Definition biP : nat -> nat * list R := fun i => match i with 0%nat => (2%nat, [1; -2; 1]) | 1%nat => (2%nat, [1/3]) | _ => (0%nat, [0]) end.
Lemma bi_tab : forall i, tab (biX i) (biP i).
Proof. intros i. destruct i as [|[|i]]; tabby. Qed.
Definition bi_px : list R := [0; 8/9; -(8/9); 8/27].
Definition bi_py : list R := [0; 2/3; -(2/3); 2/9].
Lemma bi_position : exists p, wheel_position 0 biX (0, 0) 0 1 = Some p /\ tab (fst p) (7%nat, bi_px) /\ tab (snd p) (5%nat, bi_py).
Proof.
  apply (position_tab biX biP 0 0 1 6 4 [8/9; -(16/9); 8/9] [2/3; -(4/3); 2/3] bi_px bi_py bi_tab); try lra; try reflexivity; try (intros x; flat; field); flat; ring.
Qed.
Definition biQ : nat -> nat * list R := fun i => match i with 2%nat => (7%nat, bi_px) | 3%nat => (5%nat, bi_py) | _ => biP i end.
Lemma bi_placed : forall p, tab (fst p) (7%nat, bi_px) -> tab (snd p) (5%nat, bi_py) -> forall i, tab (placed biX p i) (biQ i).
Proof. intros p H1 H2 i. destruct i as [|[|[|[|i]]]]; [apply (bi_tab 0)|apply (bi_tab 1)|exact H1|exact H2|apply (bi_tab (4 + i))]. Qed.
Lemma bi_solved : forall p, tab (fst p) (7%nat, bi_px) -> tab (snd p) (5%nat, bi_py) -> solved 0 (placed biX p) (bicycle_constraints 1 1 2 1 (- (PI / 4)) (PI / 4) (-1) 1 1).
Proof.
  intros p H1 H2. unfold bicycle_constraints, steer_rate_expr, steer_rate_den. quarter.
  apply solved_cons; [apply (solved_tab _ biQ (bi_placed p H1 H2) _ 2 [-(8/9); -2; -2]); [reflexivity|reflexivity|reflexivity|reflexivity|intros x; unfold bsum; flat; field|inside]|].
  apply solved_cons; [apply (solved_tab _ biQ (bi_placed p H1 H2) _ 1 [-(29/9); -1]); [reflexivity|reflexivity|reflexivity|reflexivity|intros x; unfold bsum; flat; field|inside]|].
  apply solved_cons; [apply (solved_tab _ biQ (bi_placed p H1 H2) _ 2 [-(100/81); 0; 0]); [reflexivity|reflexivity|reflexivity|reflexivity|intros x; unfold bsum; flat; field|inside]|].
  apply solved_cons; [apply (solved_tab _ biQ (bi_placed p H1 H2) _ 2 [-(100/81); 0; 0]); [reflexivity|reflexivity|reflexivity|reflexivity|intros x; unfold bsum; flat; field|inside]|].
  apply solved_cons; [apply (solved_tab _ biQ (bi_placed p H1 H2) _ 4 [-(10000/6561); 0; 0; 0; 0]); [reflexivity|reflexivity|reflexivity|reflexivity|intros x; unfold bsum; flat; field|inside]|].
  apply solved_cons; [apply (solved_tab _ biQ (bi_placed p H1 H2) _ 4 [-(10000/6561); 0; 0; 0; 0]); [reflexivity|reflexivity|reflexivity|reflexivity|intros x; unfold bsum; flat; field|inside]|].
  apply solved_cons; [apply (solved_tab _ biQ (bi_placed p H1 H2) _ 2 [-1; 0; 0]); [reflexivity|reflexivity|reflexivity|reflexivity|intros x; unfold bsum; flat; field|inside]|].
  apply solved_nil.
Qed.
Lemma bi_starts : forall p, tab (fst p) (7%nat, bi_px) -> tab (snd p) (5%nat, bi_py) -> starts 0 (placed biX p) (0 / 1) (bicycle_init 1 1 (2 * atan (1/3)) 0 (10/9) 1).
Proof.
  intros p H1 H2. unfold bicycle_init. rewrite half2, tan_0. cbv zeta.
  assert (E : small (1/10000) (10/9 / (1 + (1/3) ^ 2)) = false).
  { replace (10/9 / (1 + (1/3) ^ 2)) with 1 by field. unfold small. destruct (Rle_dec 1 (1/10000)); [lra|]. reflexivity. }
  rewrite E.
  replace (0 / 1) with 0 by field. apply (starts_tab _ biQ (bi_placed p H1 H2)); [lra|meets].
Qed.
Lemma agv_solved : forall p, tab (fst p) (7%nat, bi_px) -> tab (snd p) (5%nat, bi_py) -> solved 0 (placed biX p) (bicycle_constraints (-1) 1 2 1 (- (PI / 4)) (PI / 4) (-1) 1 1).
Proof.
  intros p H1 H2. unfold bicycle_constraints, steer_rate_expr, steer_rate_den. quarter.
  apply solved_cons; [apply (solved_tab _ biQ (bi_placed p H1 H2) _ 2 [-(8/9); -2; -2]); [reflexivity|reflexivity|reflexivity|reflexivity|intros x; unfold bsum; flat; field|inside]|].
  apply solved_cons; [apply (solved_tab _ biQ (bi_placed p H1 H2) _ 1 [-(29/9); -1]); [reflexivity|reflexivity|reflexivity|reflexivity|intros x; unfold bsum; flat; field|inside]|].
  apply solved_cons; [apply (solved_tab _ biQ (bi_placed p H1 H2) _ 2 [-(100/81); 0; 0]); [reflexivity|reflexivity|reflexivity|reflexivity|intros x; unfold bsum; flat; field|inside]|].
  apply solved_cons; [apply (solved_tab _ biQ (bi_placed p H1 H2) _ 2 [-(100/81); 0; 0]); [reflexivity|reflexivity|reflexivity|reflexivity|intros x; unfold bsum; flat; field|inside]|].
  apply solved_cons; [apply (solved_tab _ biQ (bi_placed p H1 H2) _ 4 [-(10000/6561); 0; 0; 0; 0]); [reflexivity|reflexivity|reflexivity|reflexivity|intros x; unfold bsum; flat; field|inside]|].
  apply solved_cons; [apply (solved_tab _ biQ (bi_placed p H1 H2) _ 4 [-(10000/6561); 0; 0; 0; 0]); [reflexivity|reflexivity|reflexivity|reflexivity|intros x; unfold bsum; flat; field|inside]|].
  apply solved_cons; [apply (solved_tab _ biQ (bi_placed p H1 H2) _ 2 [-1; 0; 0]); [reflexivity|reflexivity|reflexivity|reflexivity|intros x; unfold bsum; flat; field|inside]|].
  apply solved_nil.
Qed.
Lemma agv_starts : forall p, tab (fst p) (7%nat, bi_px) -> tab (snd p) (5%nat, bi_py) -> starts 0 (placed biX p) (0 / 1) (bicycle_init (-1) 1 (2 * atan (1/3)) 0 (10/9) 1).
Proof.
  intros p H1 H2. unfold bicycle_init. rewrite half2, tan_0. cbv zeta.
  assert (E : small (1/10000) (10/9 / (1 + (1/3) ^ 2)) = false).
  { replace (10/9 / (1 + (1/3) ^ 2)) with 1 by field. unfold small. destruct (Rle_dec 1 (1/10000)); [lra|]. reflexivity. }
  rewrite E.
  replace (0 / 1) with 0 by field. apply (starts_tab _ biQ (bi_placed p H1 H2)); [lra|meets].
Qed.
Lemma bi_stops : forall p, tab (fst p) (7%nat, bi_px) -> tab (snd p) (5%nat, bi_py) -> stops 0 (placed biX p) (bicycle_term (8/27, 2/9, 2 * atan (1/3)) 1).
Proof.
  intros p H1 H2. unfold bicycle_term. rewrite half2. apply (stops_tab _ biQ (bi_placed p H1 H2)). meets.
Qed.
(** ** A quadrotor in space that rises and brakes *)
Definition q3X : nat -> bspline := fun i => match i with 0%nat => mkS (bern 1) [gravity - 1; gravity] | 1%nat | 2%nat => mkS (bern 1) [0; 0] | _ => mkS (bern 0) [0] end.
Definition q3P : nat -> nat * list R := fun i => match i with 0%nat => (1%nat, [gravity - 1; 1]) | 1%nat | 2%nat => (1%nat, [0]) | _ => (0%nat, [0]) end.
Lemma q3_tab : forall i, tab (q3X i) (q3P i).
Proof. intros i. destruct i as [|[|[|i]]]; tabby. Qed.
Definition q3v (k : nat) : R := match k with 2%nat => 1/2 | _ => 0 end.
Definition q3D (k : nat) : nat := match k with 0%nat => 4%nat | 1%nat => 4%nat | _ => 5%nat end.
Definition q3V (k : nat) : list R := match k with 2%nat => [1/2; -1; 1/2] | _ => [0] end.
Definition q3Z (k : nat) : list R := match k with 2%nat => [0; 1/2; -(1/2); 1/6] | _ => [0] end.
Lemma q3_axes : exists m : nat -> bspline * bspline, forall k, (k < 3)%nat ->
  quad3d_axis 0 q3X (fun _ => 0) q3v 0 1 k = Some (m k) /\ tab (fst (m k)) ((2 + q3D k)%nat, q3Z k) /\ tab (snd (m k)) ((1 + q3D k)%nat, q3V k).
Proof.
  assert (A0 : exists m, quad3d_axis 0 q3X (fun _ => 0) q3v 0 1 0 = Some m /\ tab (fst m) (6%nat, [0]) /\ tab (snd m) (5%nat, [0]))
    by (apply (axis_tab q3X q3P (fun _ => 0) q3v 1 0 4 [0] [0] [0] q3_tab); try lra; try reflexivity; try (intros x; flat; field); flat; ring).
  assert (A1 : exists m, quad3d_axis 0 q3X (fun _ => 0) q3v 0 1 1 = Some m /\ tab (fst m) (6%nat, [0]) /\ tab (snd m) (5%nat, [0]))
    by (apply (axis_tab q3X q3P (fun _ => 0) q3v 1 1 4 [0] [0] [0] q3_tab); try lra; try reflexivity; try (intros x; flat; field); flat; ring).
  assert (A2 : exists m, quad3d_axis 0 q3X (fun _ => 0) q3v 0 1 2 = Some m /\ tab (fst m) (7%nat, q3Z 2) /\ tab (snd m) (6%nat, q3V 2))
    by (apply (axis_tab q3X q3P (fun _ => 0) q3v 1 2 5 [-1; 1] (q3V 2) (q3Z 2) q3_tab); try lra; try reflexivity; try (intros x; flat; field); flat; try field).
  destruct A0 as (m0 & A0), A1 as (m1 & A1), A2 as (m2 & A2).
  exists (fun k => match k with 0%nat => m0 | 1%nat => m1 | _ => m2 end). intros k K. destruct k as [|[|[|k]]]; [exact A0|exact A1|exact A2|lia].
Qed.
Definition q3Q : nat -> nat * list R := fun i => if (i <? 3)%nat then q3P i else if (i <? 6)%nat then (2 + q3D (i - 3), q3Z (i - 3))%nat
  else if (i <? 9)%nat then (1 + q3D (i - 6), q3V (i - 6))%nat else q3P i.
Lemma flown_tab : forall X P m D Z V, (forall i, tab (X i) (P i)) -> (forall k, (k < 3)%nat -> tab (fst (m k)) ((2 + D k)%nat, Z k) /\ tab (snd (m k)) ((1 + D k)%nat, V k)) ->
  forall i, tab (flown X m i) (if (i <? 3)%nat then P i else if (i <? 6)%nat then (2 + D (i - 3), Z (i - 3))%nat else if (i <? 9)%nat then (1 + D (i - 6), V (i - 6))%nat else P i).
Proof.
  intros X P m D Z V HX HM i. unfold flown. destruct (i <? 3)%nat eqn:E1; [apply HX|]. apply Nat.ltb_ge in E1.
  destruct (i <? 6)%nat eqn:E2; [apply Nat.ltb_lt in E2; apply HM; lia|]. apply Nat.ltb_ge in E2.
  destruct (i <? 9)%nat eqn:E3; [apply Nat.ltb_lt in E3; apply HM; lia|]. apply HX.
Qed.
Lemma q3_solved : forall m, (forall k, (k < 3)%nat -> tab (fst (m k)) ((2 + q3D k)%nat, q3Z k) /\ tab (snd (m k)) ((1 + q3D k)%nat, q3V k)) ->
  solved 0 (flown q3X m) (quad3d_constraints 5 15 (-1) 1 (-1) 1 (- (PI / 2)) (PI / 2) (- (PI / 2)) (PI / 2) 1).
Proof.
  intros m HM. unfold quad3d_constraints. quarter.
  apply solved_cons; [apply (solved_tab _ q3Q (flown_tab q3X q3P m q3D q3Z q3V q3_tab HM) _ 1 [gravity - 1 - 15; gravity - 15]); [reflexivity|reflexivity|reflexivity|reflexivity|intros x; unfold bsum; flat; field|unfold gravity; inside]|].
  apply solved_cons; [apply (solved_tab _ q3Q (flown_tab q3X q3P m q3D q3Z q3V q3_tab HM) _ 1 [-(gravity - 1) + 5; - gravity + 5]); [reflexivity|reflexivity|reflexivity|reflexivity|intros x; unfold bsum; flat; field|unfold gravity; inside]|].
  apply solved_cons; [apply (solved_tab _ q3Q (flown_tab q3X q3P m q3D q3Z q3V q3_tab HM) _ 0 [-1]); [reflexivity|reflexivity|reflexivity|reflexivity|intros x; unfold bsum; flat; field|unfold gravity; inside]|].
  apply solved_cons; [apply (solved_tab _ q3Q (flown_tab q3X q3P m q3D q3Z q3V q3_tab HM) _ 0 [-1]); [reflexivity|reflexivity|reflexivity|reflexivity|intros x; unfold bsum; flat; field|unfold gravity; inside]|].
  apply solved_cons; [apply (solved_tab _ q3Q (flown_tab q3X q3P m q3D q3Z q3V q3_tab HM) _ 0 [-1]); [reflexivity|reflexivity|reflexivity|reflexivity|intros x; unfold bsum; flat; field|unfold gravity; inside]|].
  apply solved_cons; [apply (solved_tab _ q3Q (flown_tab q3X q3P m q3D q3Z q3V q3_tab HM) _ 0 [-1]); [reflexivity|reflexivity|reflexivity|reflexivity|intros x; unfold bsum; flat; field|unfold gravity; inside]|].
  apply solved_cons; [apply (solved_tab _ q3Q (flown_tab q3X q3P m q3D q3Z q3V q3_tab HM) _ 0 [-1]); [reflexivity|reflexivity|reflexivity|reflexivity|intros x; unfold bsum; flat; field|unfold gravity; inside]|].
  apply solved_cons; [apply (solved_tab _ q3Q (flown_tab q3X q3P m q3D q3Z q3V q3_tab HM) _ 0 [-1]); [reflexivity|reflexivity|reflexivity|reflexivity|intros x; unfold bsum; flat; field|unfold gravity; inside]|].
  apply solved_cons; [apply (solved_tab _ q3Q (flown_tab q3X q3P m q3D q3Z q3V q3_tab HM) _ 0 [-1]); [reflexivity|reflexivity|reflexivity|reflexivity|intros x; unfold bsum; flat; field|unfold gravity; inside]|].
  apply solved_cons; [apply (solved_tab _ q3Q (flown_tab q3X q3P m q3D q3Z q3V q3_tab HM) _ 0 [-1]); [reflexivity|reflexivity|reflexivity|reflexivity|intros x; unfold bsum; flat; field|unfold gravity; inside]|].
  apply solved_nil.
Qed.
Lemma q3_starts : forall m, (forall k, (k < 3)%nat -> tab (fst (m k)) ((2 + q3D k)%nat, q3Z k) /\ tab (snd (m k)) ((1 + q3D k)%nat, q3V k)) -> starts 0 (flown q3X m) (0 / 1) (quad3d_init 0 0 (gravity - 1)).
Proof.
  intros m HM. unfold quad3d_init. replace (0 / 2) with 0 by field. rewrite tan_0. cbv zeta. replace (0 / 1) with 0 by field.
  apply (starts_tab _ q3Q (flown_tab q3X q3P m q3D q3Z q3V q3_tab HM)); [lra|meets].
Qed.
Lemma q3_stops : forall m, (forall k, (k < 3)%nat -> tab (fst (m k)) ((2 + q3D k)%nat, q3Z k) /\ tab (snd (m k)) ((1 + q3D k)%nat, q3V k)) -> stops 0 (flown q3X m) (quad3d_stop 0 0 (1/6) 0 0).
Proof.
  intros m HM. unfold quad3d_stop. replace (0 / 2) with 0 by field. rewrite tan_0.
  apply (stops_tab _ q3Q (flown_tab q3X q3P m q3D q3Z q3V q3_tab HM)). meets.
Qed.
(** ** A planar quadrotor that brakes *)
Definition qpX : nat -> bspline := fun i => match i with 0%nat => mkS (bern 5) [1/20; 0; 0; 0; 0; 0] | _ => mkS (bern 5) [1; 1; 1; 1; 1; 1] end.
Definition qpP : nat -> nat * list R := fun i => match i with 0%nat => (5%nat, [1/20; -(1/4); 1/2; -(1/2); 1/4; -(1/20)]) | _ => (5%nat, [1]) end.
Lemma qp_tab : forall i, tab (qpX i) (qpP i).
Proof. intros i. destruct i as [|i]; tabby. Qed.
Lemma qp_solved : solved 0 qpX (quad_constraints 5 15 (-1) 1 1).
Proof.
  unfold quad_constraints.
  apply solved_cons; [apply (solved_tab _ qpP qp_tab _ 6 [-(1 + gravity ^ 2) + 25; -(0 + gravity ^ 2) + 25; -(0 + gravity ^ 2) + 25; -(0 + gravity ^ 2) + 25; -(0 + gravity ^ 2) + 25; -(0 + gravity ^ 2) + 25; -(0 + gravity ^ 2) + 25]); [reflexivity|reflexivity|reflexivity|reflexivity|intros x; unfold bsum; flat; field|unfold gravity; inside]|].
  apply solved_cons; [apply (solved_tab _ qpP qp_tab _ 6 [1 + gravity ^ 2 - 225; 0 + gravity ^ 2 - 225; 0 + gravity ^ 2 - 225; 0 + gravity ^ 2 - 225; 0 + gravity ^ 2 - 225; 0 + gravity ^ 2 - 225; 0 + gravity ^ 2 - 225]); [reflexivity|reflexivity|reflexivity|reflexivity|intros x; unfold bsum; flat; field|unfold gravity; inside]|].
  apply solved_cons; [apply (solved_tab _ qpP qp_tab _ 6 [3 * gravity * 1 - (1 + gravity ^ 2); 3 * gravity * 2/3 - (0 + gravity ^ 2); 3 * gravity * 2/5 - (0 + gravity ^ 2); 3 * gravity * 1/5 - (0 + gravity ^ 2); 3 * gravity * 1/15 - (0 + gravity ^ 2); 3 * gravity * 0 - (0 + gravity ^ 2); 3 * gravity * 0 - (0 + gravity ^ 2)]); [reflexivity|reflexivity|reflexivity|reflexivity|intros x; unfold bsum; flat; field|unfold gravity; inside]|].
  apply solved_cons; [apply (solved_tab _ qpP qp_tab _ 6 [- (3 * gravity * 1) - (1 + gravity ^ 2); - (3 * gravity * 2/3) - (0 + gravity ^ 2); - (3 * gravity * 2/5) - (0 + gravity ^ 2); - (3 * gravity * 1/5) - (0 + gravity ^ 2); - (3 * gravity * 1/15) - (0 + gravity ^ 2); - (3 * gravity * 0) - (0 + gravity ^ 2); - (3 * gravity * 0) - (0 + gravity ^ 2)]); [reflexivity|reflexivity|reflexivity|reflexivity|intros x; unfold bsum; flat; field|unfold gravity; inside]|].
  apply solved_nil.
Qed.
Lemma qp_starts : starts 0 qpX (0 / 1) (quad_init (1/20, 1) (-(1/4), 0) (1, 0) 1).
Proof. unfold quad_init. replace (0 / 1) with 0 by field. apply (starts_tab _ qpP qp_tab); [lra|meets]. Qed.
Lemma qp_stops : stops 0 qpX (quad_term (0, 1)).
Proof. unfold quad_term. cbn [app flat_map seq fst snd]. apply (stops_tab _ qpP qp_tab). meets. Qed.
(** ** A simple quadrotor in space that brakes *)
Definition qsX : nat -> bspline := fun i => match i with 0%nat => mkS (bern 5) [gravity / 20; 0; 0; 0; 0; 0] | _ => mkS (bern 5) [0; 0; 0; 0; 0; 0] end.
Definition qsP : nat -> nat * list R := fun i => match i with 0%nat => (5%nat, [gravity / 20 * (1); gravity / 20 * (-5); gravity / 20 * (10); gravity / 20 * (-10); gravity / 20 * (5); gravity / 20 * (-1)]) | _ => (5%nat, [0]) end.
Lemma qs_tab : forall i, tab (qsX i) (qsP i).
Proof. intros i. destruct i as [|i]; tabby. Qed.
Lemma qs_solved : solved 0 qsX (simple3d_constraints 5 15 (- (1)) 1 (- (4)) 4 (- (1)) 1 (- (1)) 1 1).
Proof.
  unfold simple3d_constraints.
  apply solved_cons; [apply (solved_tab _ qsP qs_tab _ 6 [-(gravity ^ 2 * 1 + gravity ^ 2) + 25; -(gravity ^ 2 * 0 + gravity ^ 2) + 25; -(gravity ^ 2 * 0 + gravity ^ 2) + 25; -(gravity ^ 2 * 0 + gravity ^ 2) + 25; -(gravity ^ 2 * 0 + gravity ^ 2) + 25; -(gravity ^ 2 * 0 + gravity ^ 2) + 25; -(gravity ^ 2 * 0 + gravity ^ 2) + 25]); [reflexivity|reflexivity|reflexivity|reflexivity|intros x; unfold bsum; flat; field|unfold gravity; inside]|].
  apply solved_cons; [apply (solved_tab _ qsP qs_tab _ 6 [gravity ^ 2 * 1 + gravity ^ 2 - 225; gravity ^ 2 * 0 + gravity ^ 2 - 225; gravity ^ 2 * 0 + gravity ^ 2 - 225; gravity ^ 2 * 0 + gravity ^ 2 - 225; gravity ^ 2 * 0 + gravity ^ 2 - 225; gravity ^ 2 * 0 + gravity ^ 2 - 225; gravity ^ 2 * 0 + gravity ^ 2 - 225]); [reflexivity|reflexivity|reflexivity|reflexivity|intros x; unfold bsum; flat; field|unfold gravity; inside]|].
  apply solved_cons; [apply (solved_tab _ qsP qs_tab _ 0 [- gravity ^ 2]); [reflexivity|reflexivity|reflexivity|reflexivity|intros x; unfold bsum; flat; field|unfold gravity; inside]|].
  apply solved_cons; [apply (solved_tab _ qsP qs_tab _ 0 [- gravity ^ 2]); [reflexivity|reflexivity|reflexivity|reflexivity|intros x; unfold bsum; flat; field|unfold gravity; inside]|].
  apply solved_cons; [apply (solved_tab _ qsP qs_tab _ 2 [-(3 * gravity ^ 2 * 1) - gravity ^ 2 * 4; -(3 * gravity ^ 2 * 0) - gravity ^ 2 * 4; -(3 * gravity ^ 2 * 0) - gravity ^ 2 * 4]); [reflexivity|reflexivity|reflexivity|reflexivity|intros x; unfold bsum; flat; field|unfold gravity; inside]|].
  apply solved_cons; [apply (solved_tab _ qsP qs_tab _ 2 [3 * gravity ^ 2 * 1 - gravity ^ 2 * 4; 3 * gravity ^ 2 * 0 - gravity ^ 2 * 4; 3 * gravity ^ 2 * 0 - gravity ^ 2 * 4]); [reflexivity|reflexivity|reflexivity|reflexivity|intros x; unfold bsum; flat; field|unfold gravity; inside]|].
  apply solved_cons; [apply (solved_tab _ qsP qs_tab _ 0 [- gravity]); [reflexivity|reflexivity|reflexivity|reflexivity|intros x; unfold bsum; flat; field|unfold gravity; inside]|].
  apply solved_cons; [apply (solved_tab _ qsP qs_tab _ 0 [- gravity]); [reflexivity|reflexivity|reflexivity|reflexivity|intros x; unfold bsum; flat; field|unfold gravity; inside]|].
  apply solved_cons; [apply (solved_tab _ qsP qs_tab _ 3 [gravity * 1 - gravity; gravity * 0 - gravity; gravity * 0 - gravity; gravity * 0 - gravity]); [reflexivity|reflexivity|reflexivity|reflexivity|intros x; unfold bsum; flat; field|unfold gravity; inside]|].
  apply solved_cons; [apply (solved_tab _ qsP qs_tab _ 3 [-(gravity * 1) - gravity; -(gravity * 0) - gravity; -(gravity * 0) - gravity; -(gravity * 0) - gravity]); [reflexivity|reflexivity|reflexivity|reflexivity|intros x; unfold bsum; flat; field|unfold gravity; inside]|].
  apply solved_nil.
Qed.
Lemma qs_starts : starts 0 qsX (0 / 1) (simple3d_init (gravity / 20, 0, 0) (- gravity / 4, 0, 0) 0 (PI / 4) (gravity * sqrt 2) 1).
Proof.
  unfold simple3d_init. rewrite cos_0, sin_0, cos_PI4, sin_PI4. replace (0 / 1) with 0 by field.
  assert (S0 : sqrt 2 <> 0) by (intros E; pose proof (sqrt_sqrt 2 ltac:(lra)) as Q; rewrite E in Q; lra).
  apply (starts_tab _ qsP qs_tab); [lra|]. repeat (constructor; [flat; split; [reflexivity|field; try assumption]|]). constructor.
Qed.
Lemma qs_stops : stops 0 qsX (simple3d_term 0 0 0).
Proof. unfold simple3d_term. cbn [app flat_map seq]. apply (stops_tab _ qsP qs_tab). meets. Qed.
(** ** Holonomic vehicles *)
Definition hoX : nat -> bspline := fun i => match i with 0%nat => mkS (bern 4) [1; 0; 0; 0; 0] | 2%nat => mkS (bern 4) [1/2; 1/4; 1/4; 1/4; 1/4] | _ => mkS (bern 4) [0; 0; 0; 0; 0] end.
Definition hoP : nat -> nat * list R := fun i => match i with 0%nat => (4%nat, [1; -4; 6; -4; 1]) | 2%nat => (4%nat, [1/2; -1; 3/2; -1; 1/4]) | _ => (4%nat, [0]) end.
Lemma ho_tab : forall i, tab (hoX i) (hoP i).
Proof. intros i. destruct i as [|[|[|i]]]; tabby. Qed.
Lemma ho_solved : exists cs, holonomicorient_constraints "norm_inf" (-5) 5 (-15) 15 (-3) 3 1 = Some cs /\ solved 0 hoX cs.
Proof.
  eexists. split; [reflexivity|]. cbn [app].
  apply solved_cons; [apply (solved_tab _ hoP ho_tab _ 3 [-1; -5; -5; -5]); [reflexivity|reflexivity|reflexivity|reflexivity|intros x; unfold bsum; flat; field|inside]|].
  apply solved_cons; [apply (solved_tab _ hoP ho_tab _ 0 [-5]); [reflexivity|reflexivity|reflexivity|reflexivity|intros x; unfold bsum; flat; field|inside]|].
  apply solved_cons; [apply (solved_tab _ hoP ho_tab _ 3 [-9; -5; -5; -5]); [reflexivity|reflexivity|reflexivity|reflexivity|intros x; unfold bsum; flat; field|inside]|].
  apply solved_cons; [apply (solved_tab _ hoP ho_tab _ 0 [-5]); [reflexivity|reflexivity|reflexivity|reflexivity|intros x; unfold bsum; flat; field|inside]|].
  apply solved_cons; [apply (solved_tab _ hoP ho_tab _ 2 [-27; -15; -15]); [reflexivity|reflexivity|reflexivity|reflexivity|intros x; unfold bsum; flat; field|inside]|].
  apply solved_cons; [apply (solved_tab _ hoP ho_tab _ 0 [-15]); [reflexivity|reflexivity|reflexivity|reflexivity|intros x; unfold bsum; flat; field|inside]|].
  apply solved_cons; [apply (solved_tab _ hoP ho_tab _ 2 [-3; -15; -15]); [reflexivity|reflexivity|reflexivity|reflexivity|intros x; unfold bsum; flat; field|inside]|].
  apply solved_cons; [apply (solved_tab _ hoP ho_tab _ 0 [-15]); [reflexivity|reflexivity|reflexivity|reflexivity|intros x; unfold bsum; flat; field|inside]|].
  apply solved_cons; [apply (solved_tab _ hoP ho_tab _ 8 [-(23/4); -(37/8); -(223/56); -(25/7); -(467/140); -(361/112); -(51/16); -(51/16); -(51/16)]); [reflexivity|reflexivity|reflexivity|reflexivity|intros x; unfold bsum; flat; field|inside]|].
  apply solved_cons; [apply (solved_tab _ hoP ho_tab _ 8 [-(7/4); -(17/8); -(143/56); -(20/7); -(61/20); -(353/112); -(51/16); -(51/16); -(51/16)]); [reflexivity|reflexivity|reflexivity|reflexivity|intros x; unfold bsum; flat; field|inside]|].
  apply solved_nil.
Qed.
Lemma ho_starts : starts 0 hoX (0 / 1) (holonomicorient_init (1, 0, 2 * atan (1/2)) (-4, 0, -(8/5)) 1).
Proof. unfold holonomicorient_init. rewrite half2. replace (0 / 1) with 0 by field. apply (starts_tab _ hoP ho_tab); [lra|meets]. Qed.
Lemma ho_stops : stops 0 hoX (holonomicorient_term (0, 0, 2 * atan (1/4))).
Proof. unfold holonomicorient_term. rewrite half2. cbn [app flat_map seq]. apply (stops_tab _ hoP ho_tab). meets. Qed.
Lemma h3_solved : exists cs, holonomic3d_constraints "norm_inf" (-5) 5 (-15) 15 1 = Some cs /\ solved 0 hoX cs.
Proof.
  eexists. split; [reflexivity|].
  apply solved_cons; [apply (solved_tab _ hoP ho_tab _ 3 [-1; -5; -5; -5]); [reflexivity|reflexivity|reflexivity|reflexivity|intros x; unfold bsum; flat; field|inside]|].
  apply solved_cons; [apply (solved_tab _ hoP ho_tab _ 0 [-5]); [reflexivity|reflexivity|reflexivity|reflexivity|intros x; unfold bsum; flat; field|inside]|].
  apply solved_cons; [apply (solved_tab _ hoP ho_tab _ 3 [-4; -5; -5; -5]); [reflexivity|reflexivity|reflexivity|reflexivity|intros x; unfold bsum; flat; field|inside]|].
  apply solved_cons; [apply (solved_tab _ hoP ho_tab _ 3 [-9; -5; -5; -5]); [reflexivity|reflexivity|reflexivity|reflexivity|intros x; unfold bsum; flat; field|inside]|].
  apply solved_cons; [apply (solved_tab _ hoP ho_tab _ 0 [-5]); [reflexivity|reflexivity|reflexivity|reflexivity|intros x; unfold bsum; flat; field|inside]|].
  apply solved_cons; [apply (solved_tab _ hoP ho_tab _ 3 [-6; -5; -5; -5]); [reflexivity|reflexivity|reflexivity|reflexivity|intros x; unfold bsum; flat; field|inside]|].
  apply solved_cons; [apply (solved_tab _ hoP ho_tab _ 2 [-27; -15; -15]); [reflexivity|reflexivity|reflexivity|reflexivity|intros x; unfold bsum; flat; field|inside]|].
  apply solved_cons; [apply (solved_tab _ hoP ho_tab _ 0 [-15]); [reflexivity|reflexivity|reflexivity|reflexivity|intros x; unfold bsum; flat; field|inside]|].
  apply solved_cons; [apply (solved_tab _ hoP ho_tab _ 2 [-18; -15; -15]); [reflexivity|reflexivity|reflexivity|reflexivity|intros x; unfold bsum; flat; field|inside]|].
  apply solved_cons; [apply (solved_tab _ hoP ho_tab _ 2 [-3; -15; -15]); [reflexivity|reflexivity|reflexivity|reflexivity|intros x; unfold bsum; flat; field|inside]|].
  apply solved_cons; [apply (solved_tab _ hoP ho_tab _ 0 [-15]); [reflexivity|reflexivity|reflexivity|reflexivity|intros x; unfold bsum; flat; field|inside]|].
  apply solved_cons; [apply (solved_tab _ hoP ho_tab _ 2 [-12; -15; -15]); [reflexivity|reflexivity|reflexivity|reflexivity|intros x; unfold bsum; flat; field|inside]|].
  apply solved_nil.
Qed.
Lemma h3_two_solved : exists cs, holonomic3d_constraints "norm_2" 0 5 0 15 1 = Some cs /\ solved 0 hoX cs.
Proof.
  eexists. split; [reflexivity|].
  apply solved_cons; [apply (solved_tab _ hoP ho_tab _ 6 [-8; -25; -25; -25; -25; -25; -25]); [reflexivity|reflexivity|reflexivity|reflexivity|intros x; unfold bsum; flat; field|inside]|].
  apply solved_cons; [apply (solved_tab _ hoP ho_tab _ 4 [-72; -225; -225; -225; -225]); [reflexivity|reflexivity|reflexivity|reflexivity|intros x; unfold bsum; flat; field|inside]|].
  apply solved_nil.
Qed.
Lemma h1_solved : solved 0 hoX (holonomic1d_constraints (-5) 5 (-15) 15 1).
Proof.
  unfold holonomic1d_constraints.
  apply solved_cons; [apply (solved_tab _ hoP ho_tab _ 3 [-1; -5; -5; -5]); [reflexivity|reflexivity|reflexivity|reflexivity|intros x; unfold bsum; flat; field|inside]|].
  apply solved_cons; [apply (solved_tab _ hoP ho_tab _ 3 [-9; -5; -5; -5]); [reflexivity|reflexivity|reflexivity|reflexivity|intros x; unfold bsum; flat; field|inside]|].
  apply solved_cons; [apply (solved_tab _ hoP ho_tab _ 2 [-27; -15; -15]); [reflexivity|reflexivity|reflexivity|reflexivity|intros x; unfold bsum; flat; field|inside]|].
  apply solved_cons; [apply (solved_tab _ hoP ho_tab _ 2 [-3; -15; -15]); [reflexivity|reflexivity|reflexivity|reflexivity|intros x; unfold bsum; flat; field|inside]|].
  apply solved_nil.
Qed.
Definition h3pos (k : nat) : R := match k with 0%nat => 1 | 1%nat => 0 | _ => 1/2 end.
Definition h3vel (k : nat) : R := match k with 0%nat => -4 | 1%nat => 0 | _ => -1 end.
Definition h3goal (k : nat) : R := match k with 0%nat => 0 | 1%nat => 0 | _ => 1/4 end.
Lemma h3_starts : starts 0 hoX (0 / 1) (axes_init 3 h3pos h3vel 1).
Proof. unfold axes_init. cbn [map seq app]. replace (0 / 1) with 0 by field. apply (starts_tab _ hoP ho_tab); [lra|meets]. Qed.
Lemma h3_stops : stops 0 hoX (axes_term 3 h3goal).
Proof. unfold axes_term. cbn [map seq app flat_map]. apply (stops_tab _ hoP ho_tab). meets. Qed.

(** ** A quadrotor in space with the substitution that is not exact: the real
    vehicle rises while the substitute stands still *)
Definition suX (a : R) : nat -> bspline := fun i => match i with 0%nat => mkS (bern 1) [gravity + a; gravity] | 1%nat | 2%nat => mkS (bern 1) [0; 0] | _ => mkS (bern 0) [0] end.
Definition suP (a : R) : nat -> nat * list R := fun i => match i with 0%nat => (1%nat, [gravity + a; - a]) | 1%nat | 2%nat => (1%nat, [0]) | _ => (0%nat, [0]) end.
Lemma su_tab : forall a i, tab (suX a i) (suP a i).
Proof. intros a i. destruct i as [|[|[|i]]]; tabby. Qed.
Definition suV (a T : R) (k : nat) : list R := match k with 2%nat => [0; T * a; -(T * a / 2)] | _ => [0] end.
Definition suZ (a T : R) (k : nat) : list R := match k with 2%nat => [0; 0; T ^ 2 * a / 2; -(T ^ 2 * a / 6)] | _ => [0] end.
Lemma su_axes : forall a T, 0 < T -> exists m : nat -> bspline * bspline, forall k, (k < 3)%nat ->
  quad3d_axis 0 (suX a) (fun _ => 0) (fun _ => 0) 0 T k = Some (m k) /\ tab (fst (m k)) ((2 + q3D k)%nat, suZ a T k) /\ tab (snd (m k)) ((1 + q3D k)%nat, suV a T k).
Proof.
  intros a T PT.
  assert (A0 : exists m, quad3d_axis 0 (suX a) (fun _ => 0) (fun _ => 0) 0 T 0 = Some m /\ tab (fst m) (6%nat, [0]) /\ tab (snd m) (5%nat, [0]))
    by (apply (axis_tab (suX a) (suP a) (fun _ => 0) (fun _ => 0) T 0 4 [0] [0] [0] (su_tab a)); try lra; try reflexivity; try (intros x; flat; field); flat; ring).
  assert (A1 : exists m, quad3d_axis 0 (suX a) (fun _ => 0) (fun _ => 0) 0 T 1 = Some m /\ tab (fst m) (6%nat, [0]) /\ tab (snd m) (5%nat, [0]))
    by (apply (axis_tab (suX a) (suP a) (fun _ => 0) (fun _ => 0) T 1 4 [0] [0] [0] (su_tab a)); try lra; try reflexivity; try (intros x; flat; field); flat; ring).
  assert (A2 : exists m, quad3d_axis 0 (suX a) (fun _ => 0) (fun _ => 0) 0 T 2 = Some m /\ tab (fst m) (7%nat, suZ a T 2) /\ tab (snd m) (6%nat, suV a T 2))
    by (apply (axis_tab (suX a) (suP a) (fun _ => 0) (fun _ => 0) T 2 5 [a; - a] (suV a T 2) (suZ a T 2) (su_tab a)); try lra; try reflexivity; try (intros x; flat; field); flat; try field).
  destruct A0 as (m0 & A0), A1 as (m1 & A1), A2 as (m2 & A2).
  exists (fun k => match k with 0%nat => m0 | 1%nat => m1 | _ => m2 end). intros k K. destruct k as [|[|[|k]]]; [exact A0|exact A1|exact A2|lia].
Qed.
Definition suQ (a T : R) : nat -> nat * list R := fun i => if (i <? 3)%nat then suP a i else if (i <? 6)%nat then (2 + q3D (i - 3), suZ a T (i - 3))%nat
  else if (i <? 9)%nat then (1 + q3D (i - 6), suV a T (i - 6))%nat else if (i <? 12)%nat then suP a i else if (i <? 15)%nat then (2%nat, [0]) else (1%nat, [0]).
Lemma su_flown : forall a T m, 0 < T ->
  (forall k, (k < 3)%nat -> tab (fst (m k)) ((2 + q3D k)%nat, suZ a T k) /\ tab (snd (m k)) ((1 + q3D k)%nat, suV a T k)) ->
  forall i, tab (flown_substitute (suX a) m (quad3d_substitute (suX a) (fun _ => 0) (fun _ => 0) 0 T) i) (suQ a T i).
Proof.
  intros a T m PT HM i. unfold flown_substitute, suQ. pose proof (flown_tab (suX a) (suP a) m q3D (suZ a T) (suV a T) (su_tab a) HM i) as FT.
  destruct (i <? 12)%nat eqn:E.
  - destruct (i <? 3)%nat, (i <? 6)%nat, (i <? 9)%nat; exact FT.
  - apply Nat.ltb_ge in E. destruct (i <? 3)%nat eqn:E1; [apply Nat.ltb_lt in E1; lia|]. destruct (i <? 6)%nat eqn:E2; [apply Nat.ltb_lt in E2; lia|].
    destruct (i <? 9)%nat eqn:E3; [apply Nat.ltb_lt in E3; lia|].
    assert (TZ : tab (suX a 9) (0%nat, [0])) by apply (su_tab a 9).
    assert (TV : tab (integrate_spline (mkS (bern 0) [0]) 0 0 T) (1%nat, [0])) by (apply (integrate_tab _ 0 [0] 0 T [0] PT TZ); [intros x; flat; ring|flat; ring]).
    assert (TP : tab (integrate_spline (integrate_spline (mkS (bern 0) [0]) 0 0 T) 0 0 T) (2%nat, [0])) by (apply (integrate_tab _ 1 [0] 0 T [0] PT TV); [intros x; flat; ring|flat; ring]).
    destruct (i <? 15)%nat; cbn [quad3d_substitute integrate_twice_spline fst snd suX Nat.add]; assumption.
Qed.
Lemma su_solved : forall a T m, 0 < a -> 0 < T -> (forall k, (k < 3)%nat -> tab (fst (m k)) ((2 + q3D k)%nat, suZ a T k) /\ tab (snd (m k)) ((1 + q3D k)%nat, suV a T k)) ->
  solved 0 (flown_substitute (suX a) m (quad3d_substitute (suX a) (fun _ => 0) (fun _ => 0) 0 T)) (quad3d_constraints 5 (gravity + a) (-1) 1 (-1) 1 (- (PI / 2)) (PI / 2) (- (PI / 2)) (PI / 2) T).
Proof.
  intros a T m PA PT HM. unfold quad3d_constraints. quarter.
  apply solved_cons; [apply (solved_tab _ (suQ a T) (su_flown a T m PT HM) _ 1 [gravity + a - (gravity + a); gravity - (gravity + a)]); [reflexivity|reflexivity|reflexivity|reflexivity|intros x; unfold bsum; flat; field|unfold gravity; inside]|].
  apply solved_cons; [apply (solved_tab _ (suQ a T) (su_flown a T m PT HM) _ 1 [-(gravity + a) + 5; - gravity + 5]); [reflexivity|reflexivity|reflexivity|reflexivity|intros x; unfold bsum; flat; field|unfold gravity; inside]|].
  apply solved_cons; [apply (solved_tab _ (suQ a T) (su_flown a T m PT HM) _ 0 [- T]); [reflexivity|reflexivity|reflexivity|reflexivity|intros x; unfold bsum; flat; field|unfold gravity; inside]|].
  apply solved_cons; [apply (solved_tab _ (suQ a T) (su_flown a T m PT HM) _ 0 [- T]); [reflexivity|reflexivity|reflexivity|reflexivity|intros x; unfold bsum; flat; field|unfold gravity; inside]|].
  apply solved_cons; [apply (solved_tab _ (suQ a T) (su_flown a T m PT HM) _ 0 [- T]); [reflexivity|reflexivity|reflexivity|reflexivity|intros x; unfold bsum; flat; field|unfold gravity; inside]|].
  apply solved_cons; [apply (solved_tab _ (suQ a T) (su_flown a T m PT HM) _ 0 [- T]); [reflexivity|reflexivity|reflexivity|reflexivity|intros x; unfold bsum; flat; field|unfold gravity; inside]|].
  apply solved_cons; [apply (solved_tab _ (suQ a T) (su_flown a T m PT HM) _ 0 [-1]); [reflexivity|reflexivity|reflexivity|reflexivity|intros x; unfold bsum; flat; field|unfold gravity; inside]|].
  apply solved_cons; [apply (solved_tab _ (suQ a T) (su_flown a T m PT HM) _ 0 [-1]); [reflexivity|reflexivity|reflexivity|reflexivity|intros x; unfold bsum; flat; field|unfold gravity; inside]|].
  apply solved_cons; [apply (solved_tab _ (suQ a T) (su_flown a T m PT HM) _ 0 [-1]); [reflexivity|reflexivity|reflexivity|reflexivity|intros x; unfold bsum; flat; field|unfold gravity; inside]|].
  apply solved_cons; [apply (solved_tab _ (suQ a T) (su_flown a T m PT HM) _ 0 [-1]); [reflexivity|reflexivity|reflexivity|reflexivity|intros x; unfold bsum; flat; field|unfold gravity; inside]|].
  apply solved_nil.
Qed.
Lemma su_close : forall a T m, 0 < a -> 0 < T -> T ^ 2 * a / 3 <= 1 / 1000 -> (forall k, (k < 3)%nat -> tab (fst (m k)) ((2 + q3D k)%nat, suZ a T k) /\ tab (snd (m k)) ((1 + q3D k)%nat, suV a T k)) -> solved 0 (flown_substitute (suX a) m (quad3d_substitute (suX a) (fun _ => 0) (fun _ => 0) 0 T)) quad3d_substitution.
Proof.
  intros a T m PA PT B HM. unfold quad3d_substitution. cbn [map Nat.add].
  assert (Q : 0 < T ^ 2 * a) by (apply Rmult_lt_0_compat; [apply pow_lt|]; assumption).
  apply solved_cons; [apply (solved_tab _ (suQ a T) (su_flown a T m PT HM) _ 0 [0]); [reflexivity|reflexivity|reflexivity|reflexivity|intros x; unfold bsum; flat; field|inside]|].
  apply solved_cons; [apply (solved_tab _ (suQ a T) (su_flown a T m PT HM) _ 0 [0]); [reflexivity|reflexivity|reflexivity|reflexivity|intros x; unfold bsum; flat; field|inside]|].
  apply solved_cons; [apply (solved_tab _ (suQ a T) (su_flown a T m PT HM) _ 3 [0; 0; -(T ^ 2 * a / 6); -(T ^ 2 * a / 3)]); [reflexivity|reflexivity|reflexivity|reflexivity|intros x; unfold bsum; flat; field|inside]|].
  apply solved_nil.
Qed.
Lemma su_starts : forall a T m, 0 < T -> (forall k, (k < 3)%nat -> tab (fst (m k)) ((2 + q3D k)%nat, suZ a T k) /\ tab (snd (m k)) ((1 + q3D k)%nat, suV a T k)) -> starts 0 (flown_substitute (suX a) m (quad3d_substitute (suX a) (fun _ => 0) (fun _ => 0) 0 T)) (0 / T) (quad3d_init 0 0 (gravity + a)).
Proof.
  intros a T m PT HM. unfold quad3d_init. replace (0 / 2) with 0 by field. rewrite tan_0. cbv zeta. replace (0 / T) with 0 by (field; lra).
  apply (starts_tab _ (suQ a T) (su_flown a T m PT HM)); [lra|meets].
Qed.
Lemma su_stops : forall a T m, 0 < T -> (forall k, (k < 3)%nat -> tab (fst (m k)) ((2 + q3D k)%nat, suZ a T k) /\ tab (snd (m k)) ((1 + q3D k)%nat, suV a T k)) -> stops 0 (flown_substitute (suX a) m (quad3d_substitute (suX a) (fun _ => 0) (fun _ => 0) 0 T)) (quad3d_stop_substitute 0 0 0 0 0).
Proof.
  intros a T m PT HM. unfold quad3d_stop_substitute. replace (0 / 2) with 0 by field. rewrite tan_0.
  apply (stops_tab _ (suQ a T) (su_flown a T m PT HM)). meets.
Qed.
