(** Steering angle near standstill, start and end constraints, fleet centre,
    trailer. *)
From Coq Require Import Reals List Arith Bool Lia Lra Psatz.
From Verif Require Import Angle_Model Angle_Proofs Vehicle_Model Wheel_Model Vehicle_Spec
  Vehicle_Proofs Vehicle_Proofs2 Wheel_Proofs.
Import ListNotations.
Open Scope R_scope.

(** ** standing start: l'Hopital's rule *)
Section Hop.
Variables sgn L : R.

Lemma deriv_quot : forall lo hi f t d, f t = 0 -> deriv_in lo hi f t d ->
  limit1_in (fun h => f (t + h) / h) (fun h => 0 < h /\ lo <= t + h <= hi) d 0.
Proof.
  intros lo hi f t d Z D eps E. destruct (D eps E) as (delta & P & Q).
  exists delta. split; [exact P|]. intros h [[H0 H1] HD]. cbn in *. unfold R_dist in *.
  rewrite Rminus_0_r in HD. specialize (Q h ltac:(lra) HD H1). rewrite Z, Rminus_0_r in Q. exact Q.
Qed.

Lemma steer_limit : forall lo hi (v tg : R -> jet) t, lo <= t <= hi ->
  smooth lo hi v 0 -> smooth lo hi tg 0 -> smooth lo hi tg 1 ->
  v t 0%nat = 0 -> tg t 1%nat = 0 -> 0 < v t 1%nat ->
  forall eps, 0 < eps -> exists delta, 0 < delta /\
    forall h, 0 < h < delta -> t + h <= hi ->
      Rabs (steer_angle sgn L (v (t + h)) (tg (t + h)) - steer_hop sgn L (v t) (tg t)) < eps.
Proof.
  intros lo hi v tg t H S0 S1 S2 V0 W0 V1 eps E.
  set (N' := sgn * 2 * tg t 2%nat * L).
  set (D' := v t 1%nat * (1 + tg t 0%nat ^ 2) ^ 2).
  assert (DP : 0 < D') by (apply Rmult_lt_0_compat; [exact V1|apply pow_lt, one_sq]).
  assert (LN : limit1_in (fun h => num sgn L (tg (t + h)) / h) (fun h => 0 < h /\ lo <= t + h <= hi) N' 0).
  { apply (deriv_quot lo hi (fun u => num sgn L (tg u))); [unfold num; rewrite W0; ring|].
    apply num_deriv; assumption. }
  assert (LD : limit1_in (fun h => den (v (t + h)) (tg (t + h)) / h) (fun h => 0 < h /\ lo <= t + h <= hi) D' 0).
  { apply (deriv_quot lo hi (fun u => den (v u) (tg u))); [unfold den; rewrite V0; ring|].
    eapply deriv_eq; [apply den_deriv; assumption|]. rewrite W0. unfold D'. ring. }
  assert (LV : limit1_in (fun h => v (t + h) 0%nat / h) (fun h => 0 < h /\ lo <= t + h <= hi) (v t 1%nat) 0).
  { apply (deriv_quot lo hi (fun u => v u 0%nat)); [exact V0|]. apply S0; exact H. }
  assert (DN : D' <> 0) by lra.
  pose proof (limit_mul _ _ _ _ _ _ LN (limit_inv _ _ _ _ LD DN)) as LQ.
  assert (C : continuity_pt atan (N' * / D')) by (apply derivable_continuous_pt, derivable_pt_atan).
  destruct (C eps E) as (a1 & A1 & B1). cbn in B1. unfold R_dist in B1.
  destruct (LQ a1 A1) as (d1 & P1 & Q1). cbn in Q1. unfold R_dist in Q1.
  destruct (LV (v t 1%nat) ltac:(lra)) as (d2 & P2 & Q2). cbn in Q2. unfold R_dist in Q2.
  exists (Rmin d1 d2). split; [apply Rmin_pos; assumption|].
  intros h [H0 HD] HH. pose proof (Rmin_l d1 d2). pose proof (Rmin_r d1 d2).
  assert (HA : Rabs (h - 0) < d1) by (rewrite Rminus_0_r, Rabs_right; lra).
  assert (HB : Rabs (h - 0) < d2) by (rewrite Rminus_0_r, Rabs_right; lra).
  assert (HI : lo <= t + h <= hi) by lra.
  specialize (Q1 h (conj (conj H0 HI) HA)). specialize (Q2 h (conj (conj H0 HI) HB)).
  assert (VH : 0 < v (t + h) 0%nat).
  { assert (0 < v (t + h) 0%nat / h).
    { revert Q2. unfold Rabs. destruct (Rcase_abs _); lra. }
    replace (v (t + h) 0%nat) with (v (t + h) 0%nat / h * h) by (field; lra).
    apply Rmult_lt_0_compat; assumption. }
  pose proof (den_pos (v (t + h)) (tg (t + h)) VH) as DH.
  rewrite angle_atan by exact VH.
  assert (HOP : steer_hop sgn L (v t) (tg t) = atan (N' * / D')).
  { unfold steer_hop, atan2. fold N' D'. destruct (Rlt_dec 0 D'); [reflexivity|contradiction]. }
  rewrite HOP.
  replace (num sgn L (tg (t + h)) / den (v (t + h)) (tg (t + h)))
    with (num sgn L (tg (t + h)) / h * / (den (v (t + h)) (tg (t + h)) / h)) by (field; lra).
  set (q := num sgn L (tg (t + h)) / h * / (den (v (t + h)) (tg (t + h)) / h)) in *.
  destruct (Req_dec q (N' * / D')) as [Z|Z].
  - rewrite Z. replace (atan (N' * / D') - atan (N' * / D')) with 0 by ring. rewrite Rabs_R0. exact E.
  - apply B1. split; [|exact Q1]. split; [exact I|]. intros X. apply Z. symmetry. exact X.
Qed.

(** while the vehicle moves, the reported angles are the true ones *)
Definition raw (s : jet * jet) : R * R := (steer_angle sgn L (fst s) (snd s), steer_rate sgn L (fst s) (snd s)).
Lemma small_false : forall b r, b < r -> small b r = false.
Proof. intros b r H. unfold small. destruct (Rle_dec r b); [lra|reflexivity]. Qed.
Lemma small_true : forall b r, r <= b -> small b r = true.
Proof. intros b r H. unfold small. destruct (Rle_dec r b); [reflexivity|lra]. Qed.
Lemma middle_raw : forall (ss : list (jet * jet)) prev, (forall s : jet * jet, In s ss -> 1/1000 < fst s 0%nat) ->
  middle sgn L prev ss = map raw ss.
Proof.
  induction ss as [|[v tg] ss IH]; intros prev H; [reflexivity|].
  cbn [middle map]. rewrite (small_false (1/1000) (v 0%nat)) by (apply (H (v, tg)); left; reflexivity).
  cbn [andb]. rewrite IH by (intros s I; apply H; right; exact I). reflexivity.
Qed.
Lemma removelast_in : forall (A : Type) (l : list A) x, In x (removelast l) -> In x l.
Proof.
  intros A l. induction l as [|a l IH]; intros x I; [inversion I|].
  cbn [removelast] in I. destruct l as [|b l]; [inversion I|].
  destruct I as [I|I]; [left; exact I|right; apply IH; exact I].
Qed.
Lemma last_in : forall (A : Type) (l : list A) a d, In (last (a :: l) d) (a :: l).
Proof.
  intros A l. induction l as [|b l IH]; intros a d; [left; reflexivity|].
  right. apply IH.
Qed.
Lemma steer_signals_raw : forall ss : list (jet * jet), (2 <= length ss)%nat -> (forall s : jet * jet, In s ss -> 1/1000 < fst s 0%nat) ->
  steer_signals sgn L ss = Some (map raw ss).
Proof.
  intros ss LE H. destruct ss as [|[v0 tg0] [|[v1 tg1] rest]]; cbn in LE; try lia.
  unfold steer_signals.
  assert (H0 : 1/1000 < v0 0%nat) by (apply (H (v0, tg0)); left; reflexivity).
  rewrite (small_false (1/10000) (v0 0%nat)) by lra. cbn [andb].
  rewrite middle_raw by (intros s I; apply H; right; apply removelast_in; exact I).
  assert (N : (v1, tg1) :: rest <> []) by discriminate.
  pose proof (app_removelast_last (v1, tg1) N) as AR.
  pose proof (last_in _ rest (v1, tg1) (v1, tg1)) as LI.
  set (l := (v1, tg1) :: rest) in *.
  destruct (last l (v1, tg1)) as [vn tgn] eqn:EL.
  assert (HN : 1/1000 < vn 0%nat) by (apply (H (vn, tgn)); right; exact LI).
  rewrite (small_false (1/10000) (vn 0%nat)) by lra. cbn [andb].
  f_equal. cbn [map]. f_equal. rewrite AR at 2. rewrite map_app. reflexivity.
Qed.

(** the last sample of an arrived vehicle repeats the pair before it *)
Lemma steer_signals_arrived : forall (ss : list (jet * jet)) (v tg : jet), ss <> [] -> v 0%nat = 0 -> tg 1%nat = 0 ->
  exists out p, steer_signals sgn L (ss ++ [(v, tg)]) = Some (out ++ [p; p]).
Proof.
  intros ss v tg N V W. destruct ss as [|[v0 tg0] ss]; [contradiction|]. clear N.
  assert (E : exists x l, ss ++ [(v, tg)] = x :: l /\ removelast (x :: l) = ss /\ forall d, last (x :: l) d = (v, tg)).
  { destruct ss as [|s ss].
    - exists (v, tg), []. repeat split.
    - exists s, (ss ++ [(v, tg)]). split; [reflexivity|]. split.
      + change (s :: ss ++ [(v, tg)]) with ((s :: ss) ++ [(v, tg)]). apply removelast_last.
      + intros d. change (s :: ss ++ [(v, tg)]) with ((s :: ss) ++ [(v, tg)]). apply last_last. }
  destruct E as (x & l & E1 & E2 & E3).
  cbn [app]. rewrite E1. destruct x as [v1 tg1]. unfold steer_signals.
  rewrite E2, E3. rewrite (small_true (1/10000) (v 0%nat)), (small_true (1/10000) (tg 1%nat)) by lra. cbn [andb].
  match goal with |- context [middle sgn L ?f ss] => set (first := f) end.
  set (mid := middle sgn L first ss).
  destruct mid as [|m mid'] eqn:EM.
  - exists [], first. reflexivity.
  - assert (AR : m :: mid' = removelast (m :: mid') ++ [last (m :: mid') first])
      by (apply app_removelast_last; discriminate).
    revert AR. generalize (removelast (m :: mid')) (last (m :: mid') first). intros r z AR.
    exists (first :: r), z. rewrite AR, <- app_assoc. reflexivity.
Qed.
End Hop.

(** a slow turn to the right is taken for a standstill: the reported steering
    angle is the one of the sample before, although the sample meets all
    trajectory constraints *)
Lemma tan_ge_id : forall x, 0 <= x -> x < PI / 2 -> x <= tan x.
Proof.
  intros x H0 H1. destruct (Req_dec x 0) as [E|E]; [rewrite E, tan_0; lra|].
  apply Rlt_le. pose proof PI_RGT_0.
  destruct (MVT_cor2 (fun u => tan u - u) (fun u => (1 + tan u ^ 2) - 1) 0 x) as (c & C & B).
  - lra.
  - intros c Hc. apply derivable_pt_lim_minus; [|apply derivable_pt_lim_id].
    assert (P : - PI/2 < c < PI/2) by lra.
    pose proof (derive_pt_tan c P) as D.
    replace (1 + tan c ^ 2) with (derive_pt tan c (derivable_pt_tan c P)) by exact D.
    apply derive_pt_eq_1 with (pr := derivable_pt_tan c P). reflexivity.
  - rewrite tan_0 in C. cbn beta in C. assert (0 < tan c) by (apply tan_gt_0; lra).
    assert (0 < tan c ^ 2 * x) by (apply Rmult_lt_0_compat; [apply pow_lt; assumption|lra]). lra.
Qed.
Definition still_v : jet := fun o => match o with O => 9/10000 | _ => 0 end.
Definition still_tg : jet := fun o => match o with O => 10 | 1%nat => -1 | _ => 0 end.
Definition go_v : jet := fun o => match o with O => 1/10 | _ => 0 end.
Definition go_tg : jet := fun _ => 0.
Definition pick (v tg : jet) : nat -> jet := fun i => match i with O => v | _ => tg end.
Lemma fixup_wrong : exists p0 p1 p2,
  holds (pick still_v still_tg) (bicycle_constraints 1 (1/10) (8/10) 1 (- (PI/6)) (PI/6) (- (PI/4)) (PI/4) 1) /\
  steer_signals 1 (1/10) [(go_v, go_tg); (still_v, still_tg); (go_v, go_tg)] = Some [p0; p1; p2] /\
  fst p1 = 0 /\ steer_angle 1 (1/10) still_v still_tg < 0 /\ til_V still_v still_tg > 9/100.
Proof.
  pose proof PI_RGT_0 as PI0. pose proof PI2_3_2 as PB. unfold PI2 in PB.
  assert (VP : 0 < still_v 0%nat) by (unfold still_v; lra).
  assert (A : steer_angle 1 (1/10) still_v still_tg = atan (-2000/91809)).
  { rewrite angle_atan by exact VP. f_equal. unfold num, den, still_v, still_tg. cbn [pow]. field. }
  assert (AN : atan (-2000/91809) < 0) by (rewrite <- atan_0; apply atan_increasing; lra).
  assert (P0 : phys 1 still_v 0 = still_v 0%nat) by apply phys0.
  exists (raw 1 (1/10) (go_v, go_tg)), (steer_angle 1 (1/10) go_v go_tg, steer_rate 1 (1/10) go_v go_tg),
    (raw 1 (1/10) (go_v, go_tg)).
  split.
  - apply bicycle_limits; [lra|lra|lra|lra|exact VP|].
    cbn [pick].
    unfold til_V, dubins_acc, steer_rate. rewrite !phys0, !phys1, !phys2.
    rewrite angle_atan by (rewrite phys0; exact VP).
    replace (num 1 (1/10) (phys 1 still_tg) / den (phys 1 still_v) (phys 1 still_tg)) with (-2000/91809)
      by (unfold num, den; rewrite !phys0, !phys1; unfold still_v, still_tg; cbn [pow]; field).
    unfold still_v, still_tg. 
    split; [lra|]. split; [lra|]. split.
    + split; [|lra].
      apply atan_ge_iff; [lra|].
      rewrite tan_neg. pose proof (tan_ge_id (PI/6) ltac:(lra) ltac:(lra)). lra.
    + match goal with |- _ <= ?e <= _ => replace e with (-72720000/8432892481) end.
      * split; lra.
      * field.
  - split.
    + unfold steer_signals. rewrite (small_false (1/10000) (go_v 0%nat)) by (unfold go_v; lra). cbn [andb removelast last middle].
      rewrite (small_true (1/1000) (still_v 0%nat)) by (unfold still_v; lra).
      rewrite (small_true (1/1000) (still_tg 1%nat)) by (unfold still_tg; lra).
      rewrite (small_true (1/10000) (still_tg 2%nat)) by (unfold still_tg; lra).
      rewrite (small_true (1/10000) (still_v 1%nat)) by (unfold still_v; lra).
      rewrite (small_false (1/10000) (go_v 0%nat)) by (unfold go_v; lra). cbn [andb]. reflexivity.
    + cbn [fst]. split; [|split].
      * rewrite angle_atan by (unfold go_v; lra). replace (_ / _) with 0; [apply atan_0|].
        unfold num, go_tg. unfold Rdiv. ring.
      * rewrite A. exact AN.
      * unfold til_V, still_v, still_tg. lra.
Qed.
