(** Concrete solutions used by the examples of Properties_Lift. *)
From Coq Require Import Reals List Arith Bool ZArith String Lia Lra.
From Verif Require Import Spline_Model Spline_Spec Spline_Proofs Splop_Model Splop_Spec Splop_Proofs2 Splop_Proofs3 Splop_Proofs4
  Obst_Model Vehicle_Model Vehicle_Spec Lift_Model Lift_Spec Lift_Proofs Lift_Proofs2 Lift_Examples.
Import ListNotations.
Local Open Scope R_scope.

Ltac fitall F := repeat match goal with
  | |- on_unit _ /\ _ => exact (F _) | |- _ /\ _ => split | |- True => exact Logic.I | |- (_ <= _)%nat => lia end.
Lemma z_unit : forall c, on_unit (mkS zbasis [c]).
Proof. intros. split; [exact zbasis_clamped|reflexivity]. Qed.
Lemma o_unit : forall a b c, on_unit (mkS obasis [a; b; c]).
Proof. intros. split; [exact obasis_clamped|reflexivity]. Qed.

(* a disc driving from (0,0) to (1,0), avoiding one that moves along x = 3;
   the hyperplane is x = 2 *)
Definition X_disc (i : nat) : bspline :=
  match i with
  | 0%nat => mkS obasis [0; 0; 1]
  | 1%nat => mkS obasis [0; 1; 0]
  | 2%nat => mkS zbasis [1]
  | 3%nat => mkS zbasis [0]
  | 4%nat => mkS zbasis [2]
  | 5%nat => mkS zbasis [0]
  | 6%nat => pos_spline 3 0 0 1 10
  | 7%nat => pos_spline 0 (1/2) 0 1 10
  | _ => mkS zbasis [0]
  end.
Definition D_disc (i : nat) : kind := match i with 0%nat | 1%nat | 6%nat | 7%nat => KO | _ => KZ end.
Lemma D_disc_ok : forall i, has_kind (D_disc i) (Spl (X_disc i)).
Proof. intros i. do 8 (destruct i as [|i]; [reflexivity|]). reflexivity. Qed.
Lemma X_disc_unit : forall i, on_unit (X_disc i).
Proof.
  intros i. do 8 (destruct i as [|i]; [first [apply z_unit | apply o_unit]|]). apply z_unit.
Qed.
Lemma X_disc_fits : forall i, fits X_disc (SV i 0).
Proof. intros i. split; [apply X_disc_unit|lia]. Qed.
Lemma J_disc : forall x, 0 <= x <= 1 ->
  jets X_disc x 0%nat 0%nat = x ^ 2 /\ jets X_disc x 1%nat 0%nat = 2 * x * (1 - x) /\ jets X_disc x 2%nat 0%nat = 1 /\
  jets X_disc x 3%nat 0%nat = 0 /\ jets X_disc x 4%nat 0%nat = 2 /\ jets X_disc x 5%nat 0%nat = 0 /\
  jets X_disc x 6%nat 0%nat = 3 /\ jets X_disc x 7%nat 0%nat = - (1/2) + 5 * x.
Proof.
  intros x I. rewrite (jets_o X_disc 0 _ _ _ x eq_refl I), (jets_o X_disc 1 _ _ _ x eq_refl I), (jets_o X_disc 6 _ _ _ x eq_refl I), (jets_o X_disc 7 _ _ _ x eq_refl I).
  rewrite (jets_z X_disc 2 _ x eq_refl I), (jets_z X_disc 3 _ x eq_refl I), (jets_z X_disc 4 _ x eq_refl I), (jets_z X_disc 5 _ x eq_refl I).
  unfold back_x, back_v. repeat split; field.
Qed.
Ltac eval_disc :=
  destruct (J_disc 0 ltac:(lra)) as (A0 & A1 & A2 & A3 & A4 & A5 & A6 & A7);
  destruct (J_disc 1 ltac:(lra)) as (B0 & B1 & B2 & B3 & B4 & B5 & B6 & B7);
  destruct (J_disc (1/2) ltac:(lra)) as (C0 & C1 & C2 & C3 & C4 & C5 & C6 & C7);
  cbn [sval veh_sx obs_sx norm_sx]; rewrite ?A0, ?A1, ?A2, ?A3, ?A4, ?A5, ?A6, ?A7, ?B0, ?B1, ?B2, ?B3, ?B4, ?B5, ?B6, ?B7,
    ?C0, ?C1, ?C2, ?C3, ?C4, ?C5, ?C6, ?C7; try lra.
Lemma disc_solved : solved 0 X_disc (le0 (norm_sx (SV 2 0) (SV 3 0)) ::
  le0 (veh_sx (SV 2 0) (SV 3 0) (SV 4 0) 0 0 (1/2) (SN 1) (1/10) (SV 5 0) (SV 0 0) (SV 1 0) (SN 0) 0) ::
  le0 (obs_sx (SV 2 0) (SV 3 0) (SV 4 0) 0 0 (1/2) (SV 6 0) (SV 7 0) (SN 1) (SN 0) (SN 1)) :: eps_cons (1/10) (SV 5 0)).
Proof.
  apply solved_cons; [|apply solved_cons; [|apply solved_cons; [|unfold eps_cons; apply solved_cons; [|apply solved_cons; [|apply solved_nil]]]]].
  - apply (solved_kind X_disc D_disc _ KZ D_disc_ok); [|reflexivity| | |]; [|eval_disc..].
    unfold norm_sx. cbn [fits]. pose proof X_disc_fits as F. cbn [fits] in F. fitall F.
  - apply (solved_kind X_disc D_disc _ KO D_disc_ok); [|reflexivity| | |]; [|eval_disc..].
    unfold veh_sx. cbn [fits]. pose proof X_disc_fits as F. cbn [fits] in F. fitall F.
  - apply (solved_kind X_disc D_disc _ KO D_disc_ok); [|reflexivity| | |]; [|eval_disc..].
    unfold obs_sx. cbn [fits]. pose proof X_disc_fits as F. cbn [fits] in F. fitall F.
  - apply (solved_kind X_disc D_disc _ KZ D_disc_ok); [|reflexivity| | |]; [|eval_disc..].
    cbn [fits]. pose proof X_disc_fits as F. cbn [fits] in F. fitall F.
  - apply (solved_kind X_disc D_disc _ KZ D_disc_ok); [|reflexivity| | |]; [|eval_disc..].
    cbn [fits]. pose proof X_disc_fits as F. cbn [fits] in F. fitall F.
Qed.

(* two vehicles approaching each other up to (1,0) and (3,1) *)
Definition X_two (i : nat) : bspline :=
  match i with
  | 0%nat => mkS obasis [0; 0; 1]
  | 1%nat => mkS zbasis [0]
  | 2%nat => mkS zbasis [1]
  | 3%nat => mkS zbasis [0]
  | 4%nat => mkS zbasis [2]
  | 5%nat => mkS obasis [4; 4; 3]
  | _ => mkS zbasis [1]
  end.
Definition D_two (i : nat) : kind := match i with 0%nat | 5%nat => KO | _ => KZ end.
Lemma D_two_ok : forall i, has_kind (D_two i) (Spl (X_two i)).
Proof. intros i. do 6 (destruct i as [|i]; [reflexivity|]). reflexivity. Qed.
Lemma X_two_fits : forall i, fits X_two (SV i 0).
Proof. intros i. split; [|lia]. do 6 (destruct i as [|i]; [first [apply z_unit | apply o_unit]|]). apply z_unit. Qed.
Lemma J_two : forall x, 0 <= x <= 1 ->
  jets X_two x 0%nat 0%nat = x ^ 2 /\ jets X_two x 1%nat 0%nat = 0 /\ jets X_two x 2%nat 0%nat = 1 /\
  jets X_two x 3%nat 0%nat = 0 /\ jets X_two x 4%nat 0%nat = 2 /\ jets X_two x 5%nat 0%nat = 4 - x ^ 2 /\ jets X_two x 6%nat 0%nat = 1.
Proof.
  intros x I. rewrite (jets_o X_two 0 _ _ _ x eq_refl I), (jets_o X_two 5 _ _ _ x eq_refl I).
  rewrite (jets_z X_two 1 _ x eq_refl I), (jets_z X_two 2 _ x eq_refl I), (jets_z X_two 3 _ x eq_refl I), (jets_z X_two 4 _ x eq_refl I), (jets_z X_two 6 _ x eq_refl I).
  repeat split; ring.
Qed.
Ltac eval_two :=
  destruct (J_two 0 ltac:(lra)) as (A0 & A1 & A2 & A3 & A4 & A5 & A6);
  destruct (J_two 1 ltac:(lra)) as (B0 & B1 & B2 & B3 & B4 & B5 & B6);
  destruct (J_two (1/2) ltac:(lra)) as (C0 & C1 & C2 & C3 & C4 & C5 & C6);
  cbn [sval veh_sx obs_sx norm_sx]; rewrite ?A0, ?A1, ?A2, ?A3, ?A4, ?A5, ?A6, ?B0, ?B1, ?B2, ?B3, ?B4, ?B5, ?B6,
    ?C0, ?C1, ?C2, ?C3, ?C4, ?C5, ?C6; try lra.
Lemma two_solved : solved 0 X_two (le0 (norm_sx (SV 2 0) (SV 3 0)) ::
  map (fun c => le0 (veh_sx (SV 2 0) (SV 3 0) (SV 4 0) (fst c) (snd c) (1/2) (SN 1) (1/10) (SN 0) (SV 0 0) (SV 1 0) (SN 0) 0)) [(0, 0)] ++
  map (fun c => le0 (veh_sx (- SV 2 0) (- SV 3 0) (- SV 4 0) (fst c) (snd c) (1/2) (SN 1) (1/10) (SN 0) (SV 5 0) (SV 6 0) (SN 0) 0)) [(0, 0)]).
Proof.
  cbn [map app fst snd].
  apply solved_cons; [|apply solved_cons; [|apply solved_cons; [|apply solved_nil]]].
  - apply (solved_kind X_two D_two _ KZ D_two_ok); [|reflexivity| | |]; [|eval_two..].
    unfold norm_sx. cbn [fits]. pose proof X_two_fits as F. cbn [fits] in F. fitall F.
  - apply (solved_kind X_two D_two _ KO D_two_ok); [|reflexivity| | |]; [|eval_two..].
    unfold veh_sx. cbn [fits]. pose proof X_two_fits as F. cbn [fits] in F. fitall F.
  - apply (solved_kind X_two D_two _ KO D_two_ok); [|reflexivity| | |]; [|eval_two..].
    unfold veh_sx. cbn [fits]. pose proof X_two_fits as F. cbn [fits] in F. fitall F.
Qed.

(* a ball going up from the origin to (0,0,1) under one at (0,0,3) *)
Definition X_ball (i : nat) : bspline :=
  match i with
  | 0%nat => mkS obasis [0; 0; 1]
  | 1%nat => mkS zbasis [0]
  | 2%nat => mkS zbasis [1]
  | 3%nat => mkS zbasis [2]
  | 4%nat => mkS obasis [3; 3; 3]
  | _ => mkS zbasis [0]
  end.
Definition D_ball (i : nat) : kind := match i with 0%nat | 4%nat => KO | _ => KZ end.
Lemma D_ball_ok : forall i, has_kind (D_ball i) (Spl (X_ball i)).
Proof. intros i. do 5 (destruct i as [|i]; [reflexivity|]). reflexivity. Qed.
Lemma X_ball_fits : forall i, fits X_ball (SV i 0).
Proof. intros i. split; [|lia]. do 5 (destruct i as [|i]; [first [apply z_unit | apply o_unit]|]). apply z_unit. Qed.
Lemma J_ball : forall x, 0 <= x <= 1 ->
  jets X_ball x 0%nat 0%nat = x ^ 2 /\ jets X_ball x 1%nat 0%nat = 0 /\ jets X_ball x 2%nat 0%nat = 1 /\
  jets X_ball x 3%nat 0%nat = 2 /\ jets X_ball x 4%nat 0%nat = 3.
Proof.
  intros x I. rewrite (jets_o X_ball 0 _ _ _ x eq_refl I), (jets_o X_ball 4 _ _ _ x eq_refl I).
  rewrite (jets_z X_ball 1 _ x eq_refl I), (jets_z X_ball 2 _ x eq_refl I), (jets_z X_ball 3 _ x eq_refl I).
  repeat split; ring.
Qed.
Ltac eval_ball :=
  destruct (J_ball 0 ltac:(lra)) as (A0 & A1 & A2 & A3 & A4);
  destruct (J_ball 1 ltac:(lra)) as (B0 & B1 & B2 & B3 & B4);
  destruct (J_ball (1/2) ltac:(lra)) as (C0 & C1 & C2 & C3 & C4);
  cbn [sval veh3_sx obs3_sx norm3_sx]; rewrite ?A0, ?A1, ?A2, ?A3, ?A4, ?B0, ?B1, ?B2, ?B3, ?B4, 
    ?C0, ?C1, ?C2, ?C3, ?C4; cbn [fst snd]; try lra.
Lemma ball_solved : solved 0 X_ball (le0 (norm3_sx (SV 1 0) (SV 1 0) (SV 2 0)) ::
  map (fun c => le0 (veh3_sx (SV 1 0) (SV 1 0) (SV 2 0) (SV 3 0) c (1/2) (1/10) (SN 0) (SV 1 0) (SV 1 0) (SV 0 0))) [(0, 0, 0)] ++
  map (fun c => le0 (obs3_sx (SV 1 0) (SV 1 0) (SV 2 0) (SV 3 0) c (1/2) (SV 1 0) (SV 1 0) (SV 4 0))) [(0, 0, 0)]).
Proof.
  cbn [map app fst snd].
  apply solved_cons; [|apply solved_cons; [|apply solved_cons; [|apply solved_nil]]].
  - apply (solved_kind X_ball D_ball _ KZ D_ball_ok); [|reflexivity| | |]; [|eval_ball..].
    unfold norm3_sx. cbn [fits]. pose proof X_ball_fits as F. cbn [fits] in F. fitall F.
  - apply (solved_kind X_ball D_ball _ KO D_ball_ok); [|reflexivity| | |]; [|eval_ball..].
    unfold veh3_sx. cbn [fits]. pose proof X_ball_fits as F. cbn [fits] in F. fitall F.
  - apply (solved_kind X_ball D_ball _ KO D_ball_ok); [|reflexivity| | |]; [|eval_ball..].
    unfold obs3_sx. cbn [fits]. pose proof X_ball_fits as F. cbn [fits] in F. fitall F.
Qed.

(* the holonomic vehicle: cubic splines with one inner knot *)
Definition hbasis : bbasis := mkB [0; 0; 0; 0; 1/2; 1; 1; 1; 1] 3.
Lemma hbasis_clamped : clamped_on hbasis 0 1.
Proof. split; [split; [knots_ok|simpl; lia]|]. unfold clamped; simpl. repeat split; lra. Qed.
Definition X_hol (i : nat) : bspline :=
  match i with O => mkS hbasis [0; 1/20; 1/20; 1/20; 1/20] | _ => mkS hbasis [1; 1; 1; 1; 1] end.
Lemma X_hol_ok : forall i, (i < 2)%nat -> on_unit (X_hol i) /\ degree (sbasis (X_hol i)) = 3%nat /\
     forall t, 0 < t < 1 -> mult_le (sbasis (X_hol i)) t 1.
Proof.
  intros i Hi. destruct i as [|i]; (split; [split; [exact hbasis_clamped|reflexivity]|split; [reflexivity|]]);
    intros t Ht k Hk [K1 K2]; cbn [X_hol sbasis hbasis knots degree List.length] in *;
    (do 8 (destruct k as [|k]; [cbn in K1, K2; lra|])); lia.
Qed.
From Verif Require Import Spline_Proofs3.
Lemma unit_left : forall s, on_unit s -> call s 0 = nth 0 (coeffs s) 0.
Proof.
  intros s ((WF & CL & E1 & E2) & Z). pose proof (call_left_end s WF Z (proj1 CL) (proj1 (proj2 (proj2 CL)))) as K.
  rewrite E1 in K. exact K.
Qed.
Lemma unit_right : forall s, on_unit s -> call s 1 = nth (List.length (coeffs s) - 1) (coeffs s) 0.
Proof.
  intros s ((WF & CL & E1 & E2) & Z). destruct CL as (C1 & C2 & C3 & C4).
  pose proof (call_right_end s WF Z) as K. unfold dom_right in K. rewrite C2, E2 in K. apply K; [reflexivity|]. rewrite <- E2, <- C2. exact C4.
Qed.
Lemma h_d1 : forall g, derivative (mkS hbasis [0; g; g; g; g]) 1 = mkS (mkB [0; 0; 0; 1/2; 1; 1; 1] 2) [6 * g; 0; 0; 0].
Proof.
  intros g. unfold derivative, hbasis, slice_oo. cbn [sbasis degree knots coeffs Nat.sub List.length Nat.mul Nat.add firstn skipn deriv_loop trim tl removelast deriv_step seq map nth].
  simpl INR. f_equal. repeat (f_equal; try (field; lra)).
Qed.
Lemma h_d2 : forall g, derivative (mkS hbasis [0; g; g; g; g]) 2 = mkS (mkB [0; 0; 1/2; 1; 1] 1) [- 24 * g; 0; 0].
Proof.
  intros g. unfold derivative, hbasis, slice_oo. cbn [sbasis degree knots coeffs Nat.sub List.length Nat.mul Nat.add firstn skipn deriv_loop trim tl removelast deriv_step seq map nth].
  simpl INR. f_equal. repeat (f_equal; try (field; lra)).
Qed.
Lemma h_d3 : forall g, derivative (mkS hbasis [0; g; g; g; g]) 3 = mkS (mkB [0; 1/2; 1] 0) [48 * g; 0].
Proof.
  intros g. unfold derivative, hbasis, slice_oo. cbn [sbasis degree knots coeffs Nat.sub List.length Nat.mul Nat.add firstn skipn deriv_loop trim tl removelast deriv_step seq map nth].
  simpl INR. f_equal. repeat (f_equal; try (field; lra)).
Qed.
Lemma h_c : forall o, (1 <= o <= 3)%nat -> coeffs (derivative (mkS hbasis [1; 1; 1; 1; 1]) o) = repeat 0 (5 - o).
Proof.
  intros o Ho. assert (C : o = 1%nat \/ o = 2%nat \/ o = 3%nat) by lia.
  destruct C as [-> | [-> | ->]]; unfold derivative, hbasis, slice_oo; cbn [sbasis degree knots coeffs Nat.sub List.length Nat.mul Nat.add firstn skipn deriv_loop trim tl removelast deriv_step seq map nth repeat];
  simpl INR; repeat (f_equal; try (field; lra)).
Qed.
Definition no_bounds : hbounds := HB None None None None None None None None None None None None.
Ltac hol_con := eexists; split; [cbn [le0 cexpr build X_hol o_sub o_add o_neg];
    rewrite ?h_d1, ?h_d2; reflexivity|];
  cbn [le0 clo chi entries kept coeffs add_num neg scale sbasis map]; rewrite ?h_c by lia; cbn [repeat map Nat.sub];
  intros v Hv; split; [exact Logic.I|]; cbn [In] in Hv; unfold holonomic_limits, no_bounds, vxmin, vymin, vxmax, vymax, axmin, aymin, axmax, aymax, dflt in Hv;
  cbn [b_vmin b_vmax b_amin b_amax b_vxmin b_vymin b_vxmax b_vymax b_axmin b_aymin b_axmax b_aymax] in Hv;
  decompose [or] Hv; try contradiction; subst v; lra.
Lemma hol_solved : solved code_tol X_hol (holonomic_inf (holonomic_limits no_bounds) 2).
Proof.
  intros c Hc. unfold holonomic_inf in Hc.
  repeat (destruct Hc as [<-|Hc]; [hol_con|]). destruct Hc.
Qed.
Lemma hol_unit : forall i o, (i < 2)%nat -> (o <= 3)%nat -> on_unit (derivative (X_hol i) o).
Proof. intros i o Hi Ho. destruct (X_hol_ok i Hi) as (A & B & _). apply deriv_unit; [exact A|lia]. Qed.
Lemma hol_starts : starts code_tol X_hol (0 / 2) (holonomic_init (0, 1) (3/20, 0) 2).
Proof.
  replace (0 / 2) with 0 by field.
  assert (K : forall i o, (i < 2)%nat -> (o <= 3)%nat -> evalspline (derivative (X_hol i) o) 0 = nth 0 (coeffs (derivative (X_hol i) o)) 0).
  { intros i o Hi Ho. pose proof (hol_unit i o Hi Ho) as U. rewrite evalspline_call by apply U. apply unit_left, U. }
  intros tup Hin. destruct Hin as [<-|[<-|[<-|[<-|[]]]]]; cbn [nth build]; eexists; eexists; (split; [reflexivity|split; [reflexivity|]]);
    rewrite K by lia; cbn [X_hol fst snd]; [cbn; lra|cbn; lra|rewrite h_d1; cbn [coeffs nth]; lra|rewrite h_c by lia; cbn [repeat Nat.sub nth]; lra].
Qed.
Lemma hol_stops : stops code_tol X_hol (holonomic_term (1/20, 1)).
Proof.
  intros c Hin. cbn in Hin.
  repeat (destruct Hin as [<-|Hin]; [eexists; split; [reflexivity|]; cbn [fst snd]; rewrite unit_right by (apply hol_unit; lia); cbn [X_hol];
    rewrite ?h_d1, ?h_d2, ?h_d3, ?h_c by lia; cbn [derivative coeffs List.length Nat.sub repeat nth]; lra|]). destruct Hin.
Qed.

(* uniform motion from (0,0) to (3,4) in 10 seconds at the default speed limit *)
Definition X_norm (i : nat) : bspline :=
  match i with O => mkS obasis [0; 3/2; 3] | _ => mkS obasis [0; 2; 4] end.
Lemma o_d1 : forall a b, derivative (mkS obasis [0; a; b]) 1 = mkS lbasis [2 * a; 2 * (b - a)].
Proof.
  intros. unfold derivative, obasis, slice_oo, lbasis. cbn [sbasis degree knots coeffs Nat.sub List.length Nat.mul Nat.add firstn skipn deriv_loop trim tl removelast deriv_step seq map nth].
  simpl INR. f_equal. repeat (f_equal; try (field; lra)).
Qed.
Lemma o_d2 : forall a b, derivative (mkS obasis [0; a; b]) 2 = mkS zbasis [2 * (b - 2 * a)].
Proof.
  intros. unfold derivative, obasis, slice_oo, zbasis. cbn [sbasis degree knots coeffs Nat.sub List.length Nat.mul Nat.add firstn skipn deriv_loop trim tl removelast deriv_step seq map nth].
  simpl INR. f_equal. repeat (f_equal; try (field; lra)).
Qed.
Lemma J_norm : forall x, 0 <= x <= 1 -> jets X_norm x 0%nat 1%nat = 3 /\ jets X_norm x 1%nat 1%nat = 4 /\
  jets X_norm x 0%nat 2%nat = 0 /\ jets X_norm x 1%nat 2%nat = 0.
Proof.
  intros x I. unfold jets. cbn [X_norm]. rewrite !o_d1, !o_d2, !line_call by exact I.
  unfold call. cbn [sbasis coeffs]. rewrite !zbasis_eval by exact I. cbn [dot]. repeat split; field.
Qed.
Lemma X_norm_unit : forall i, on_unit (X_norm i) /\ (2 <= degree (sbasis (X_norm i)))%nat.
Proof. intros [|i]; (split; [apply o_unit|cbn; lia]). Qed.
Lemma norm_con : forall tolz e o, tolz = 0 -> fits X_norm e -> build tolz X_norm e = Some (Spl o) -> sbasis o = obasis \/ sbasis o = zbasis ->
  (forall x, 0 <= x <= 1 -> sval (jets X_norm x) e <= 0) ->
  2 * sval (jets X_norm (1/2)) e - (sval (jets X_norm 0) e + sval (jets X_norm 1) e) / 2 <= 0 ->
  admitted_by None 0 (entries None (Spl o)).
Proof.
  intros tolz e o Z F B HB H M. subst tolz. destruct (build_good _ _ _ _ F B) as [G _].
  assert (V : forall x, 0 <= x <= 1 -> call o x = sval (jets X_norm x) e).
  { intros x I. pose proof (build_close 0 X_norm e (Spl o) x (Rle_refl 0) F I B) as C. rewrite drift_0 in C. apply close_0, C. }
  intros v Hv. split; [exact Logic.I|]. cbn [entries kept] in Hv. destruct HB as [E|E].
  - rewrite (parabola_coeffs o E (proj2 G)), !V in Hv by lra. destruct Hv as [<-|[<-|[<-|[]]]]; first [exact M | apply H; lra].
  - rewrite (constant_coeffs o E (proj2 G)), V in Hv by lra. destruct Hv as [<-|[]]. apply H; lra.
Qed.
Lemma sq_build : forall s b2, basis_mul (sbasis s) (sbasis s) = b2 -> only_zero (blen b2) (colloc b2) ->
  exists u, o_pow 0 (Spl s) 2 = Some (Spl u) /\ sbasis u = b2.
Proof.
  intros s b2 E R. destruct (mul_ok 0 s s) as [u U]; [rewrite E; exact R|]. exists u. split; [|rewrite (mul_basis _ _ _ _ U); exact E].
  cbn [o_pow]. unfold pow_spline. change (Z.to_nat (Z.of_nat 2 - 1)) with 1%nat. cbn [pow_go]. rewrite U. reflexivity.
Qed.
Lemma norm_solved : solved 0 X_norm (holonomic_two (1/2) 1 10).
Proof.
  assert (FF : forall i o, (o <= 2)%nat -> on_unit (X_norm i) /\ (o <= degree (sbasis (X_norm i)))%nat).
  { intros i o Ho. destruct (X_norm_unit i). split; [assumption|lia]. }
  intros c [<-|[<-|[]]]; cbn [le0 cexpr clo chi].
  - destruct (sq_build (derivative (X_norm 0) 1) obasis) as (u & U & BU); [cbn [X_norm]; rewrite o_d1; apply mul_line_basis|apply obasis_regular|].
    destruct (sq_build (derivative (X_norm 1) 1) obasis) as (w & W & BW); [cbn [X_norm]; rewrite o_d1; apply mul_line_basis|apply obasis_regular|].
    destruct (add_ok 0 u w) as [s A]; [rewrite BU, BW, b_aoo; apply obasis_regular|].
    match goal with |- exists o, build _ _ ?e = _ /\ _ => set (ex := e) end.
    assert (B : build 0 X_norm ex = Some (Spl (add_num s (- (10 ^ 2 * (1/2) ^ 2))))).
    { unfold ex. cbn [build]. rewrite U, W. cbn [o_add]. rewrite A. reflexivity. }
    exists (Spl (add_num s (- (10 ^ 2 * (1/2) ^ 2)))). split; [exact B|].
    apply (norm_con 0 ex _ eq_refl); [|exact B|left; cbn [add_num sbasis]; rewrite (add_basis _ _ _ _ A), BU, BW; apply b_aoo| |].
    + unfold ex. cbn [fits]. split; [split; (split; [apply FF; lia|lia])|exact Logic.I].
    + intros x I. unfold ex. cbn [sval]. destruct (J_norm x I) as (-> & -> & _). lra.
    + unfold ex. cbn [sval]. destruct (J_norm 0 ltac:(lra)) as (-> & -> & _). destruct (J_norm 1 ltac:(lra)) as (-> & -> & _). destruct (J_norm (1/2) ltac:(lra)) as (-> & -> & _). lra.
  - destruct (sq_build (derivative (X_norm 0) 2) zbasis) as (u & U & BU); [cbn [X_norm]; rewrite o_d2; apply b_mzz|apply zbasis_regular|].
    destruct (sq_build (derivative (X_norm 1) 2) zbasis) as (w & W & BW); [cbn [X_norm]; rewrite o_d2; apply b_mzz|apply zbasis_regular|].
    destruct (add_ok 0 u w) as [s A]; [rewrite BU, BW, b_azz; apply zbasis_regular|].
    match goal with |- exists o, build _ _ ?e = _ /\ _ => set (ex := e) end.
    assert (B : build 0 X_norm ex = Some (Spl (add_num s (- (10 ^ 4 * 1 ^ 2))))).
    { unfold ex. cbn [build]. rewrite U, W. cbn [o_add]. rewrite A. reflexivity. }
    exists (Spl (add_num s (- (10 ^ 4 * 1 ^ 2)))). split; [exact B|].
    apply (norm_con 0 ex _ eq_refl); [|exact B|right; cbn [add_num sbasis]; rewrite (add_basis _ _ _ _ A), BU, BW; apply b_azz| |].
    + unfold ex. cbn [fits]. split; [split; (split; [apply FF; lia|lia])|exact Logic.I].
    + intros x I. unfold ex. cbn [sval]. destruct (J_norm x I) as (_ & _ & -> & ->). lra.
    + unfold ex. cbn [sval]. destruct (J_norm 0 ltac:(lra)) as (_ & _ & -> & ->). destruct (J_norm 1 ltac:(lra)) as (_ & _ & -> & ->). destruct (J_norm (1/2) ltac:(lra)) as (_ & _ & -> & ->). lra.
Qed.
