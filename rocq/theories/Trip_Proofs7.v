(** What the substitution of a Quadrotor3D does not fix: the velocity at the end. *)
From Coq Require Import Reals List Arith Bool ZArith Lia Lra.
From Verif Require Import Spline_Model Spline_Spec Spline_Proofs Splop_Model Splop_Spec
  Angle_Model Vehicle_Model Vehicle_Spec Vehicle_Proofs Wheel_Model Wheel_Proofs Quad_Model Lift_Model Lift_Spec Lift_Proofs Lift_Proofs2 Lift_Examples Bern_Spec Bern_Proofs Bern_Proofs2 Bern_Proofs3 Bern_Proofs4 Bern_Proofs5
  Trip_Model Trip_Spec Trip_Proofs Trip_Proofs2 Trip_Examples Trip_Examples2.
Import ListNotations.
Local Open Scope R_scope.

Theorem quad3d_end_speed : forall speed, 0 < speed -> exists T u1max f0 X m, 0 < T /\
  regular 0 (X 0%nat) /\ regular 1 (X 1%nat) /\ regular 1 (X 2%nat) /\ (forall k, (k < 3)%nat -> regular 0 (X (9 + k)%nat)) /\
  (forall k, (k < 3)%nat -> quad3d_axis 0 X (fun _ => 0) (fun _ => 0) 0 T k = Some (m k)) /\
  let Z := flown_substitute X m (quad3d_substitute X (fun _ => 0) (fun _ => 0) 0 T) in
  solved 0 Z (quad3d_constraints 5 u1max (-1) 1 (-1) 1 (- (PI / 2)) (PI / 2) (- (PI / 2)) (PI / 2) T) /\
  solved 0 Z quad3d_substitution /\ starts 0 Z (0 / T) (quad3d_init 0 0 f0) /\ stops 0 Z (quad3d_stop_substitute 0 0 0 0 0) /\
  call (snd (m 2%nat)) (T / T) = speed.
Proof.
  intros speed S. set (T := 3 / (2000 * speed)). set (a := 3 / (1000 * T ^ 2)).
  assert (PT : 0 < T) by (unfold T; apply Rdiv_lt_0_compat; lra).
  assert (PT2 : 0 < T ^ 2) by (apply pow_lt, PT).
  assert (PA : 0 < a) by (unfold a; apply Rdiv_lt_0_compat; lra).
  destruct (su_axes a T PT) as (m & H).
  assert (HM : forall k, (k < 3)%nat -> tab (fst (m k)) ((2 + q3D k)%nat, suZ a T k) /\ tab (snd (m k)) ((1 + q3D k)%nat, suV a T k)) by (intros k K; apply (H k K)).
  exists T, (gravity + a), (gravity + a), (suX a), m. cbv zeta.
  split; [exact PT|].
  split; [apply (tab_regular _ _ 0 (su_tab a 0)); cbn; lia|]. split; [apply (tab_regular _ _ 1 (su_tab a 1)); cbn; lia|].
  split; [apply (tab_regular _ _ 1 (su_tab a 2)); cbn; lia|].
  split; [intros k K; apply (tab_regular _ _ 0 (su_tab a (9 + k))); cbn; lia|].
  split; [intros k K; apply (H k K)|].
  split; [apply su_solved; assumption|]. split; [apply su_close; try assumption; right; unfold a; field; lra|].
  split; [apply su_starts; assumption|]. split; [apply su_stops; assumption|].
  destruct (HM 2%nat ltac:(lia)) as [_ (_ & _ & V)]. assert (T1 : T / T = 1) by (field; lra).
  rewrite T1, V by lra. cbn [snd suV peval].
  transitivity (3 / (2000 * T)); [unfold a; field; lra|]. unfold T. field. lra.
Qed.
