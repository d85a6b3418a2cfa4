(** Concrete teams: two vehicles side by side, in the plane and in space, and
    three vehicles in formation. *)
From Coq Require Import Reals List Arith Bool String Lia Lra.
From Verif Require Import Spline_Model Spline_Spec Spline_Proofs Splop_Model Splop_Spec Vehicle_Model Vehicle_Spec Lift_Model Lift_Spec Lift_Proofs Lift_Proofs2
  Lift_Examples Bern_Spec Bern_Proofs Bern_Proofs2 Bern_Proofs3 Bern_Proofs4 Bern_Proofs5 Trip_Proofs Trip_Proofs2 Trip_Examples
  Team_Model Team_Proofs Team_Proofs2 Team_Proofs3.
Import ListNotations.
Local Open Scope list_scope.
Local Notation length := List.length.
Local Open Scope R_scope.

(** the splines: forward motion, the lines y = 0, 1, 3, the numbers 3/2 and 1/10 *)
Definition duoX : nat -> bspline := fun i => match i with
  | 0%nat => mkS (bern 1) [0; 2] | 1%nat => mkS (bern 0) [0] | 2%nat => mkS (bern 0) [3] | 3%nat => mkS (bern 0) [1]
  | 4%nat => mkS (bern 0) [3/2] | 5%nat => mkS (bern 1) [1/10; 21/10] | 6%nat => mkS (bern 0) [1/10] | _ => mkS (bern 0) [0] end.
Definition duoP : nat -> nat * list R := fun i => match i with
  | 0%nat => (1%nat, [0; 2]) | 1%nat => (0%nat, [0]) | 2%nat => (0%nat, [3]) | 3%nat => (0%nat, [1])
  | 4%nat => (0%nat, [3/2]) | 5%nat => (1%nat, [1/10; 2]) | 6%nat => (0%nat, [1/10]) | _ => (0%nat, [0]) end.
Lemma duo_tab : forall i, tab (duoX i) (duoP i).
Proof. intros i. destruct i as [|[|[|[|[|[|[|i]]]]]]]; tabby. Qed.
(** the variables of the environment: the normal points from the first to the
    second vehicle, b is half-way; all slacks are 0 *)
Definition duo_var (l n : string) (c : nat) : nat :=
  if String.eqb l "environment0" then (if prefix "b" n then 4%nat else if (c =? 1)%nat then 3%nat else 1%nat) else 1%nat.
Definition duo (y : nat) (l : string) : member :=
  Member l 1 (1/2) (Planar [(0, 0)] 1 (fun _ => SV 0 0) (fun _ => SV y 0) (fun _ => SV 1 0) 0).
Definition duo3 (y : nat) (l : string) : member :=
  Member l 1 0 (Space [(0, 0, 0)] (3/2) (fun _ => SV 0 0) (fun _ => SV y 0) (fun _ => SV 0 0)).
Lemma half_pos : (if Rlt_dec 0 (1/2) then true else false) = true.
Proof. destruct (Rlt_dec 0 (1/2)); [reflexivity|lra]. Qed.
Ltac flatcon k l := apply solved_cons; [apply (solved_tab _ duoP duo_tab _ k l); [reflexivity|reflexivity|reflexivity|reflexivity|intros x; unfold bsum; flat; field|inside]|].
Lemma duo_solved : exists cs, apart_cons duo_var "environment0" 2 1 [duo 1 "vehicle0"; duo 2 "vehicle1"] = Some cs /\ solved 0 duoX cs.
Proof.
  eexists. split; [reflexivity|].
  cbn [norm_cons couples map filter m_label duo negb String.eqb Ascii.eqb Bool.eqb app flat_map shape_pairs m_shapes seq fst snd plane norm_of fold_left
       combine length m_sd m_body side_cons opposite nth].
  unfold slack_cons, slack, eps_cons. cbn [m_sd duo m_label]. destruct (Rlt_dec 0 (1/2)) as [_|]; [|lra].
  cbn.
  flatcon 0%nat [0]. flatcon 0%nat [-(1/2)]. flatcon 0%nat [0]. flatcon 0%nat [0]. flatcon 0%nat [-(1/2)]. flatcon 0%nat [0]. flatcon 0%nat [0].
  apply solved_nil.
Qed.
Lemma duo3_solved : exists cs, apart_cons duo_var "environment0" 3 1 [duo3 1 "vehicle0"; duo3 2 "vehicle1"] = Some cs /\ solved 0 duoX cs.
Proof.
  eexists. split; [reflexivity|].
  cbn [norm_cons couples map filter m_label duo3 negb String.eqb Ascii.eqb Bool.eqb app flat_map shape_pairs m_shapes seq fst snd plane norm_of fold_left
       combine length m_sd m_body side_cons opposite nth].
  unfold slack_cons, slack, eps_cons. cbn [m_sd duo3 m_label]. destruct (Rlt_dec 0 0) as [H|_]; [lra|].
  cbn.
  flatcon 0%nat [0]. flatcon 0%nat [0]. flatcon 0%nat [0].
  apply solved_nil.
Qed.
Lemma duo_unit : forall i, on_unit (duoX i).
Proof. intros i. destruct (tab_regular (duoX i) (duoP i) 0 (duo_tab i) (Nat.le_0_l _)) as [H _]. exact H. Qed.
(** three vehicles: (x, 0), (x, 3), (x, 1) *)
Definition trio_pos (v k : nat) : sx :=
  match k with 0%nat => SV 0 0 | _ => SV (match v with 0%nat => 1%nat | 1%nat => 2%nat | _ => 3%nat end) 0 end.
Definition trio_conf (v : nat) : list R := [0; match v with 0%nat => -1 | 1%nat => 2 | _ => 0 end].
Lemma trio_solved : exists cs, central_cons None "circular" 3 2 trio_pos trio_conf = Some cs /\ solved 0 duoX cs.
Proof.
  eexists. split; [reflexivity|]. cbn.
  flatcon 0%nat [0]. flatcon 0%nat [0]. flatcon 0%nat [0]. flatcon 0%nat [0]. apply solved_nil.
Qed.
(** the same with the second vehicle a tenth ahead *)
Definition late_pos (v k : nat) : sx := match v, k with 1%nat, 0%nat => SV 5 0 | _, _ => trio_pos v k end.
Definition late_eps (n : string) : sx := SV 6 0.
Lemma late_solved : exists cs, central_cons (Some (Some (-(1/5)), late_eps)) "circular" 3 2 late_pos trio_conf = Some cs /\ solved 0 duoX cs.
Proof.
  eexists. split; [reflexivity|]. cbn. replace (Rabs (- (1 / 5))) with (1/5) by (rewrite Rabs_Ropp, Rabs_right; lra).
  flatcon 0%nat [-(1/5)]. flatcon 0%nat [0]. flatcon 0%nat [1/10].
  flatcon 0%nat [-(1/10)]. flatcon 0%nat [-(1/10)]. flatcon 0%nat [1/10].
  flatcon 0%nat [-(1/10)]. flatcon 0%nat [-(1/10)]. flatcon 0%nat [1/10].
  flatcon 0%nat [-(1/10)]. flatcon 0%nat [-(1/10)]. flatcon 0%nat [1/10].
  apply solved_nil.
Qed.
(** two vehicles connected in a circle are not connected at all *)
Theorem two_in_circle : exists d pos conf X cs,
  central_cons None "circular" 2 d pos conf = Some cs /\ solved 0 X cs /\ (forall a, length (conf a) = d) /\
  (forall a i, fits X (pos a i) /\ mentions (pos a i) = true) /\
  exists u v k, (u < 2)%nat /\ (v < 2)%nat /\ (k < d)%nat /\ forall tau, 0 <= tau <= 1 ->
    sval (jets X tau) (pos u k) - sval (jets X tau) (pos v k) <> nth k (conf u) 0 - nth k (conf v) 0.
Proof.
  exists 1%nat, (fun _ _ => SV 0 0), (fun v => [INR v]), duoX, [].
  split; [reflexivity|]. split; [intros c []|]. split; [reflexivity|]. split.
  - intros a i. split; [|reflexivity]. split; [apply duo_unit|cbn; lia].
  - exists 0%nat, 1%nat, 0%nat. split; [lia|]. split; [lia|]. split; [lia|]. intros tau _. cbn [nth]. change (INR 0) with 0. change (INR 1) with 1. lra.
Qed.
(** the first two, each connected to the other *)
Lemma pair_solved : exists cs, central_cons None "full" 2 2 trio_pos trio_conf = Some cs /\ solved 0 duoX cs.
Proof.
  eexists. split; [reflexivity|]. cbn. flatcon 0%nat [0]. flatcon 0%nat [0]. apply solved_nil.
Qed.
