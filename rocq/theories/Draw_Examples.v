(* Concrete instances for the theorems on drawings. *)
Require Import Reals List Lra Lia Psatz ZArith.
From Verif Require Import Geom_Model Geom_Spec Geom_Proofs Geom_Proofs2 Geom_Proofs3 Geom_Proofs4.
From Verif Require Import Angle_Model Angle_Proofs Draw_Model Draw_Spec Draw_Proofs Draw_Proofs2 Draw_Proofs3 Draw_Proofs4 Draw_Proofs5 Draw_Proofs6.
Import ListNotations.
Open Scope R_scope.

Definition hy0 : nat -> nat -> hyp := fun _ _ => mkHyp (1, 0) 1 0.
Definition os0 : list (shape2 * (pt * R)) := [(circle (1 / 2), ((2, 0), 0))].
Lemma made_os0 : forall o, In o os0 -> made (fst o).
Proof. intros o [<-|[]]. constructor. lra. Qed.
Lemma turn0 : cos (0 / 2) <> 0.
Proof. replace (0 / 2) with 0 by field. rewrite cos_0. lra. Qed.
Lemma cons0 : exists cons, holonomic_problem [(7%nat, square 1 0)] os0 hy0 (1 / 4) (0, 0) (tan (0 / 2)) = Some cons /\
  (forall e, In e cons -> e <= 0).
Proof.
  eexists. split; [reflexivity|]. intros e I. unfold square, rectangle in I. rewrite rectangle_base_eq in I. cbn in I.
  unfold norm_con, veh_con, obs_con, rotate, thin in I. cbn [fst snd h_a h_b h_eps hy0] in I.
  replace (0 / 2) with 0 in I by field. rewrite tan_0, cos_0, sin_0 in I.
  repeat (destruct I as [<-|I]; [cbn [fst snd]; lra|]). destruct I.
Qed.
Lemma dcons0 : exists cons, dubins_problem [(7%nat, circle (1 / 2))] os0 hy0 (1 / 4) (0, 0) (tan (0 / 2)) = Some cons /\
  (forall e, In e cons -> e <= 0).
Proof.
  eexists. split; [reflexivity|]. intros e I. cbn in I.
  unfold norm_con, veh_con, obs_con, rotate in I. cbn [fst snd h_a h_b h_eps hy0] in I. rewrite cos_0, sin_0 in I.
  repeat (destruct I as [<-|I]; [cbn [fst snd]; lra|]). destruct I.
Qed.
Lemma tcons0 : exists cons, trailer_problem [(7%nat, circle (1 / 2))] [(8%nat, circle (1 / 2))] os0 hy0 (1 / 4) (1 / 4) 1 (0, 0) (tan (0 / 2)) 0 = Some cons /\
  (forall e, In e cons -> e <= 0).
Proof.
  eexists. split; [rewrite lead_unseen; [reflexivity|intros s [<-|[]]; discriminate]|]. intros e I. cbn in I.
  unfold norm_con, veh_con, obs_con, rotate in I. cbn [fst snd h_a h_b h_eps hy0] in I.
  replace (0 / 2) with 0 in I by field. rewrite tan_0, cos_0, sin_0 in I.
  repeat (destruct I as [<-|I]; [cbn [fst snd]; lra|]). destruct I.
Qed.
Definition hy3 : nat -> hyp3 := fun _ => mkHyp3 (0, 0, 1) 1 0.
Definition os3 : list (shape3 * pt3) := [(sphere (1 / 2), (0, 0, 2))].
Lemma made_os3 : forall o, In o os3 -> made3 (fst o).
Proof. intros o [<-|[]]. constructor. lra. Qed.
Lemma scons0 : forall e, In e (solid_problem (sphere (1 / 2)) os3 hy3 (1 / 4) (0, 0, 0)) -> e <= 0.
Proof.
  intros e I. cbn in I. unfold norm_con3, veh_con3, obs_con3, dot3, add3 in I.
  repeat (destruct I as [<-|I]; [lra|]). destruct I.
Qed.
Lemma rcons0 : forall e, In e (room_problem (mkRoom2 (rectangle 4 2 0) (0, 0) 0 true) (circle (1 / 2)) (1, 0)) -> e <= 0.
Proof.
  intros e I. unfold room_problem in I. cbn [r_shape r_pos circle checkpoints2 family2 radius2 flat_map app] in I.
  rewrite rectangle_limits in I by lra. unfold room_cons in I. cbn [fst snd app] in I.
  repeat (destruct I as [<-|I]; [lra|]). destruct I.
Qed.
