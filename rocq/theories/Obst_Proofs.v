(** Proofs for the prediction spline and the simulated motion. *)
From Coq Require Import Reals List Arith Lia Lra.
From Verif Require Import Spline_Model Spline_Spec Spline_Proofs Blossom Obst_Model Obst_Spec.
Import ListNotations.
Local Open Scope R_scope.

Lemma bl2 : forall x k c,
  diag 2 k c x =
  let a := dbstep 1 x k c in dbstep 0 x (sh k) a 0%nat.
Proof. intros. reflexivity. Qed.

Lemma obasis_wf : well_formed obasis.
Proof.
  split; [|simpl; lia]. intros i j Hij Hj. simpl in Hj.
  do 6 (destruct i as [|i]; [do 6 (destruct j as [|j]; [simpl; try lra; lia|]); simpl in *; lia|]).
  lia.
Qed.

Lemma oseg_call : forall c0 c1 c2 u, 0 <= u <= 1 ->
  call (mkS obasis [c0; c1; c2]) u = (1 - u)^2 * c0 + 2 * u * (1 - u) * c1 + u^2 * c2.
Proof.
  intros c0 c1 c2 u Hu. rewrite (call_diag _ u 2).
  - cbn [degree obasis sbasis Nat.sub shn]. rewrite bl2. unfold dbstep, sh, cf, kn; simpl. field_simplify; try lra.
  - apply obasis_wf.
  - reflexivity.
  - unfold active, kn; simpl. split; [lia|]. split; [lia|]. split; [lra|].
    destruct (Req_dec u 0); [right|left]; repeat split; lra.
Qed.

Lemma oseg_value : forall p0 v0 a0 T u, 0 <= u <= 1 ->
  call (oseg p0 v0 a0 T) u = newton p0 v0 a0 (u * T).
Proof. intros. unfold oseg. rewrite oseg_call by assumption. unfold newton. field. Qed.

Lemma pos_spline_newton : forall x v a t T s, 0 < T -> 0 <= s <= T ->
  call (pos_spline x v a t T) (s / T) = newton x v a (s - t).
Proof.
  intros x v a t T s HT Hs. unfold pos_spline. rewrite oseg_value.
  - unfold back_x, back_v, newton. field. lra.
  - split. apply Rmult_le_pos; [lra|]. left; apply Rinv_0_lt_compat; lra.
    apply (Rmult_le_reg_r T); [lra|]. unfold Rdiv. rewrite Rmult_assoc, Rinv_l by lra. lra.
Qed.

Lemma pos_spline_now : forall x v a t T, 0 < T -> 0 <= t <= T ->
  call (pos_spline x v a t T) (t / T) = x.
Proof. intros. rewrite pos_spline_newton by assumption. unfold newton. field. Qed.

Lemma pos_spline_velocity : forall x v a t T s, 0 < T -> 0 < s < T ->
  derivable_pt_lim (fun s => call (pos_spline x v a t T) (s / T)) s (v + a * (s - t)).
Proof.
  intros x v a t T s HT Hs.
  assert (D : derivable_pt_lim (fun r => newton x v a (r - t)) s (v + a * (s - t))).
  { unfold newton.
    replace (v + a * (s - t)) with (0 + v * (1 - 0) + a * (INR 2 * (s - t) ^ (pred 2) * (1 - 0)) * / 2)
      by (simpl; field).
    apply derivable_pt_lim_plus; [apply derivable_pt_lim_plus|].
    - apply derivable_pt_lim_const.
    - apply (derivable_pt_lim_scal (fun r => r - t)).
      apply (derivable_pt_lim_minus (fun r => r) (fun _ => t));
      [apply derivable_pt_lim_id|apply derivable_pt_lim_const].
    - apply (derivable_pt_lim_ext (fun r => / 2 * (a * ((fun u => u ^ 2) ((fun r => r - t) r))))).
      + intros r; field.
      + replace (a * (INR 2 * (s - t) ^ pred 2 * (1 - 0)) * / 2) with (/ 2 * (a * (INR 2 * (s - t) ^ pred 2 * (1 - 0)))) by ring.
        apply (derivable_pt_lim_scal (fun r => a * ((fun u => u ^ 2) ((fun r => r - t) r)))).
        apply (derivable_pt_lim_scal (fun r => (fun u => u ^ 2) ((fun r => r - t) r))).
        apply (derivable_pt_lim_comp (fun r => r - t) (fun u => u ^ 2)).
        * apply (derivable_pt_lim_minus (fun r => r) (fun _ => t));
          [apply derivable_pt_lim_id|apply derivable_pt_lim_const].
        * apply derivable_pt_lim_pow. }
  intros eps He. destruct (D eps He) as [d Hd].
  assert (Hm : 0 < Rmin d (Rmin s (T - s))).
  { destruct d as [d Hd0]; simpl. repeat apply Rmin_glb_lt; lra. }
  exists (mkposreal _ Hm). intros h Hh0 Hh. simpl in Hh.
  pose proof (Rmin_l d (Rmin s (T - s))). pose proof (Rmin_r d (Rmin s (T - s))).
  pose proof (Rmin_l s (T - s)). pose proof (Rmin_r s (T - s)).
  rewrite !pos_spline_newton; [apply Hd; [assumption|lra]|lra|lra|lra|].
  destruct (Rabs_def2 h (Rmin d (Rmin s (T - s)))); lra.
Qed.

(* ---------- several segments ---------- *)

Lemma segments_linear : forall Ts p0 v0 j tau, 0 <= tau <= 1 -> (j < length Ts)%nat ->
  call (nth j (pos_segments p0 v0 0 Ts) (mkS obasis [])) tau
  = p0 + v0 * (sumR (firstn j Ts) + tau * nth j Ts 0).
Proof.
  induction Ts as [|T Ts IH]; intros p0 v0 j tau Ht Hj; [simpl in Hj; lia|].
  destruct j as [|j]; cbn [pos_segments nth firstn sumR fold_right].
  - rewrite oseg_value by assumption. unfold newton. field.
  - rewrite IH; [|assumption|simpl in Hj; lia].
    rewrite oseg_value by lra. unfold newton, sumR. field.
Qed.

Lemma multi_linear : forall x v t Ts j tau, 0 <= tau <= 1 -> (j < length Ts)%nat ->
  call (nth j (pos_spline_multi x v 0 t Ts) (mkS obasis [])) tau
  = newton x v 0 (sumR (firstn j Ts) + tau * nth j Ts 0 - t).
Proof.
  intros. unfold pos_spline_multi. rewrite segments_linear by assumption.
  unfold back_x, back_v, newton. field.
Qed.

Lemma multi_first : forall x v a t T Ts tau, 0 <= tau <= 1 ->
  call (nth 0 (pos_spline_multi x v a t (T :: Ts)) (mkS obasis [])) tau
  = newton x v a (tau * T - t).
Proof.
  intros. unfold pos_spline_multi. cbn [pos_segments nth]. rewrite oseg_value by assumption.
  unfold back_x, back_v, newton. field.
Qed.

Lemma multi_refuted : exists x v a t T1 T2, 0 < T1 /\ 0 < T2 /\
  call (nth 1 (pos_spline_multi x v a t [T1; T2]) (mkS obasis [])) 1
  <> newton x v a (T1 + T2 - t).
Proof.
  exists 0, 0, 1, 0, 1, 1. split; [lra|]. split; [lra|].
  unfold pos_spline_multi. cbn [pos_segments nth]. rewrite !oseg_value by lra.
  unfold back_x, back_v, newton. lra.
Qed.

(* joint of consecutive segments: the position is continuous *)
Lemma segments_joint : forall Ts p0 v0 a0 j, (S j < length Ts)%nat ->
  call (nth (S j) (pos_segments p0 v0 a0 Ts) (mkS obasis [])) 0
  = call (nth j (pos_segments p0 v0 a0 Ts) (mkS obasis [])) 1.
Proof.
  induction Ts as [|T Ts IH]; intros p0 v0 a0 j Hj; [simpl in Hj; lia|].
  destruct j as [|j].
  - destruct Ts as [|T2 Ts]; [simpl in Hj; lia|]. cbn [pos_segments nth].
    rewrite (oseg_value _ _ _ T2) by lra. unfold newton. field.
  - cbn [pos_segments nth]. apply IH. simpl in Hj. lia.
Qed.

(* ---------- simulation ---------- *)

Lemma Rleb_dec : forall x y, (x <= y /\ Rleb x y = true) \/ (y < x /\ Rleb x y = false).
Proof.
  intros x y. destruct (Rleb x y) eqn:E; [left|right]; split; auto.
  now apply Rleb_true. now apply Rleb_false.
Qed.

(* the flow solves the differential equation between the jumps *)
Lemma deriv_ramp : forall te t, t <> te ->
  derivable_pt_lim (ramp te) t (if Rleb te t then 1 else 0).
Proof.
  intros te t Ht. destruct (Rleb_dec te t) as [[H ->]|[H ->]].
  - assert (D : derivable_pt_lim (fun r => r - te) t 1).
    { replace 1 with (1 - 0) by ring.
      apply (derivable_pt_lim_minus (fun r => r) (fun _ => te));
      [apply derivable_pt_lim_id|apply derivable_pt_lim_const]. }
    intros eps He. destruct (D eps He) as [d Hd].
    assert (Hm : 0 < Rmin d (t - te)) by (destruct d as [d Hd0]; simpl; apply Rmin_glb_lt; lra).
    exists (mkposreal _ Hm). intros h Hh0 Hh. simpl in Hh.
    pose proof (Rmin_l d (t - te)). pose proof (Rmin_r d (t - te)).
    destruct (Rabs_def2 h (Rmin d (t - te))); [assumption|].
    unfold ramp. destruct (Rleb_dec te (t + h)) as [[? ->]|[? ->]]; [|lra].
    destruct (Rleb_dec te t) as [[? ->]|[? ->]]; [|lra]. apply Hd; [assumption|lra].
  - intros eps He. assert (Hm : 0 < te - t) by lra.
    exists (mkposreal _ Hm). intros h Hh0 Hh. simpl in Hh.
    destruct (Rabs_def2 h (te - t)); [assumption|].
    unfold ramp. destruct (Rleb_dec te (t + h)) as [[? ->]|[? ->]]; [lra|].
    destruct (Rleb_dec te t) as [[? ->]|[? ->]]; [lra|].
    replace ((0 - 0) / h - 0) with 0 by (field; assumption). rewrite Rabs_R0. assumption.
Qed.

Lemma continuity_pt_ext : forall (f g : R -> R) x, (forall r, f r = g r) ->
  continuity_pt f x -> continuity_pt g x.
Proof.
  intros f g x H C eps He. destruct (C eps He) as [d [Hd Hc]]. exists d. split; [exact Hd|].
  intros y Hy. rewrite <- !H. apply Hc. exact Hy.
Qed.

Lemma ramp_cont : forall te, continuity (ramp te).
Proof.
  intros te t. assert (C : continuity_pt (fun r => Rmax 0 (r - te)) t).
  { apply (continuity_pt_ext (fun r => (0 + (r - te) + Rabs (0 - (r - te))) * / 2)).
    { intros r. unfold Rmax. destruct (Rle_dec 0 (r - te)).
      - rewrite Rabs_left1 by lra. field.
      - rewrite Rabs_right by lra. field. }
    reg. }
  apply (continuity_pt_ext (fun r => Rmax 0 (r - te))); [|exact C].
  intros r. unfold ramp. destruct (Rleb_dec te r) as [[? ->]|[? ->]];
  unfold Rmax; destruct (Rle_dec 0 (r - te)); lra.
Qed.

Lemma deriv_sum : forall (A : Type) (l : list A) (f f' : A -> R -> R) t,
  (forall e, In e l -> derivable_pt_lim (f e) t (f' e t)) ->
  derivable_pt_lim (fun r => sumR (map (fun e => f e r) l)) t (sumR (map (fun e => f' e t) l)).
Proof.
  induction l as [|e l IH]; intros f f' t H; cbn [map sumR fold_right].
  - apply derivable_pt_lim_const.
  - apply (derivable_pt_lim_plus (f e) (fun r => sumR (map (fun e => f e r) l))).
    + apply H. now left.
    + apply IH. intros; apply H; now right.
Qed.

Lemma cont_sum : forall (A : Type) (l : list A) (f : A -> R -> R),
  (forall e, In e l -> continuity (f e)) ->
  continuity (fun r => sumR (map (fun e => f e r) l)).
Proof.
  induction l as [|e l IH]; intros f H; cbn [map sumR fold_right].
  - intros t. apply continuity_pt_const. intros u v; reflexivity.
  - apply (continuity_plus (f e) (fun r => sumR (map (fun e => f e r) l))).
    + apply H. now left.
    + apply IH. intros; apply H; now right.
Qed.

Lemma deriv_shift : forall t0 t, derivable_pt_lim (fun r => r - t0) t 1.
Proof.
  intros. replace 1 with (1 - 0) by ring.
  apply (derivable_pt_lim_minus (fun r => r) (fun _ => t0));
  [apply derivable_pt_lim_id|apply derivable_pt_lim_const].
Qed.

Lemma deriv_sq : forall (f : R -> R) t f', derivable_pt_lim f t f' ->
  derivable_pt_lim (fun r => f r ^ 2) t (2 * f t * f').
Proof.
  intros. replace (2 * f t * f') with (INR 2 * f t ^ pred 2 * f') by (simpl; ring).
  apply (derivable_pt_lim_comp f (fun u => u ^ 2)); [assumption|apply derivable_pt_lim_pow].
Qed.

Lemma flow_solves : forall evs t0 s,
  flow evs t0 s t0 = s /\
  continuity (fun t => ox (flow evs t0 s t)) /\
  continuity (fun t => ov (flow evs t0 s t)) /\
  (forall t, (forall e, In e evs -> et e <> t) ->
    derivable_pt_lim (fun t => ox (flow evs t0 s t)) t (ov (flow evs t0 s t) + incr edv evs t) /\
    derivable_pt_lim (fun t => ov (flow evs t0 s t)) t (oa (flow evs t0 s t) + incr eda evs t) /\
    derivable_pt_lim (fun t => oa (flow evs t0 s t)) t 0).
Proof.
  intros evs t0 s. split; [|split; [|split]].
  - unfold flow. destruct s as [x v a]; cbn [ox ov oa].
    assert (Z : forall (l : list event) f, (forall e, f e = 0) -> sumR (map f l) = 0).
    { intros l f Hf. induction l as [|e l IH]; cbn [map sumR fold_right]; [reflexivity|].
      unfold sumR in IH. rewrite IH, Hf. ring. }
    rewrite !Z; [f_equal; field| |]; intros e; field.
  - unfold flow; cbn [ox]. apply continuity_plus; [reg|]. apply cont_sum.
    intros e He. pose proof (ramp_cont (et e)) as C.
    apply (continuity_plus (fun r => edv e * (ramp (et e) r - ramp (et e) t0))).
    + apply (continuity_mult (fun _ => edv e)); [apply continuity_const; intros ? ?; reflexivity|].
      apply (continuity_minus (ramp (et e)) (fun _ => ramp (et e) t0));
      [exact C|apply continuity_const; intros ? ?; reflexivity].
    + apply (continuity_mult (fun _ => eda e)); [apply continuity_const; intros ? ?; reflexivity|].
      apply (continuity_minus (fun r => (ramp (et e) r)^2/2 - (ramp (et e) t0)^2/2)).
      * apply (continuity_minus (fun r => (ramp (et e) r)^2/2) (fun _ => (ramp (et e) t0)^2/2));
        [|apply continuity_const; intros ? ?; reflexivity].
        apply (continuity_mult (fun r => (ramp (et e) r)^2) (fun _ => /2));
        [|apply continuity_const; intros ? ?; reflexivity].
        intros r. apply (continuity_pt_ext (fun r => ramp (et e) r * ramp (et e) r)); [intros; ring|].
        apply (continuity_mult _ _ C C).
      * intros r. reg.
  - unfold flow; cbn [ov]. apply continuity_plus; [reg|]. apply cont_sum.
    intros e He. pose proof (ramp_cont (et e)) as C.
    apply (continuity_mult (fun _ => eda e)); [apply continuity_const; intros ? ?; reflexivity|].
    apply (continuity_minus (ramp (et e)) (fun _ => ramp (et e) t0));
    [exact C|apply continuity_const; intros ? ?; reflexivity].
  - intros t Ht. split; [|split].
    + unfold flow, incr; cbn [ox ov].
      replace (ov s + oa s * (t - t0) +
        sumR (map (fun e => eda e * (ramp (et e) t - ramp (et e) t0)) evs) +
        sumR (map (fun e => if Rleb (et e) t then edv e else 0) evs))
      with ((0 + ov s * 1 + oa s * (2 * (t - t0) * 1) * / 2) +
        sumR (map (fun e => (fun e t => edv e * ((if Rleb (et e) t then 1 else 0) - 0)
            + eda e * ((2 * ramp (et e) t * (if Rleb (et e) t then 1 else 0)) * /2 - 0 - ramp (et e) t0 * 1)) e t) evs)).
      2:{ assert (E : forall l : list event, sumR (map (fun e => edv e * ((if Rleb (et e) t then 1 else 0) - 0)
            + eda e * ((2 * ramp (et e) t * (if Rleb (et e) t then 1 else 0)) * /2 - 0 - ramp (et e) t0 * 1)) l)
            = sumR (map (fun e => eda e * (ramp (et e) t - ramp (et e) t0)) l) +
              sumR (map (fun e => if Rleb (et e) t then edv e else 0) l)).
          { induction l as [|e l IH]; cbn [map sumR fold_right]; [ring|].
            unfold sumR in IH |- *. rewrite IH. unfold ramp.
            destruct (Rleb (et e) t); field. }
          cbv beta. rewrite E. field. }
      apply (derivable_pt_lim_plus (fun r => ox s + ov s * (r - t0) + oa s * (r - t0)^2 / 2)).
      * apply (derivable_pt_lim_plus (fun r => ox s + ov s * (r - t0))).
        -- apply (derivable_pt_lim_plus (fun _ => ox s)); [apply derivable_pt_lim_const|].
           apply (derivable_pt_lim_scal (fun r => r - t0)), deriv_shift.
        -- apply (derivable_pt_lim_ext (fun r => / 2 * (oa s * (r - t0)^2))); [intros; field|].
           rewrite (Rmult_comm _ (/2)). apply (derivable_pt_lim_scal (fun r => oa s * (r - t0)^2)).
           apply (derivable_pt_lim_scal (fun r => (r - t0)^2)). apply (deriv_sq (fun r => r - t0)), deriv_shift.
      * apply (deriv_sum event evs (fun e r => edv e * (ramp (et e) r - ramp (et e) t0)
           + eda e * ((ramp (et e) r)^2/2 - (ramp (et e) t0)^2/2 - ramp (et e) t0 * (r - t0)))
          (fun e t => edv e * ((if Rleb (et e) t then 1 else 0) - 0)
            + eda e * ((2 * ramp (et e) t * (if Rleb (et e) t then 1 else 0)) * /2 - 0 - ramp (et e) t0 * 1))).
        intros e He. assert (Hne : t <> et e) by (intro X; apply (Ht e He); congruence).
        pose proof (deriv_ramp (et e) t Hne) as D.
        apply (derivable_pt_lim_plus (fun r => edv e * (ramp (et e) r - ramp (et e) t0))).
        -- apply (derivable_pt_lim_scal (fun r => ramp (et e) r - ramp (et e) t0)).
           apply (derivable_pt_lim_minus (ramp (et e)) (fun _ => ramp (et e) t0)); [exact D|apply derivable_pt_lim_const].
        -- apply (derivable_pt_lim_scal (fun r => (ramp (et e) r)^2/2 - (ramp (et e) t0)^2/2 - ramp (et e) t0 * (r - t0))).
           apply (derivable_pt_lim_minus (fun r => (ramp (et e) r)^2/2 - (ramp (et e) t0)^2/2) (fun r => ramp (et e) t0 * (r - t0))).
           ++ apply (derivable_pt_lim_minus (fun r => (ramp (et e) r)^2/2) (fun _ => (ramp (et e) t0)^2/2)).
              ** apply (derivable_pt_lim_ext (fun r => / 2 * (ramp (et e) r)^2)); [intros; field|].
                 rewrite (Rmult_comm _ (/2)). apply (derivable_pt_lim_scal (fun r => (ramp (et e) r)^2)).
                 apply deriv_sq. exact D.
              ** apply derivable_pt_lim_const.
           ++ apply (derivable_pt_lim_scal (fun r => r - t0)), deriv_shift.
    + unfold flow, incr; cbn [oa ov].
      replace (oa s + sumR (map (fun e => if Rleb (et e) t then eda e else 0) evs))
      with ((0 + oa s * 1) + sumR (map (fun e => (fun e t => eda e * ((if Rleb (et e) t then 1 else 0) - 0)) e t) evs)).
      2:{ cbv beta. f_equal; [ring|]. f_equal. apply map_ext. intros e. destruct (Rleb (et e) t); ring. }
      apply (derivable_pt_lim_plus (fun r => ov s + oa s * (r - t0))).
      * apply (derivable_pt_lim_plus (fun _ => ov s)); [apply derivable_pt_lim_const|].
        apply (derivable_pt_lim_scal (fun r => r - t0)), deriv_shift.
      * apply (deriv_sum event evs (fun e r => eda e * (ramp (et e) r - ramp (et e) t0))
          (fun e t => eda e * ((if Rleb (et e) t then 1 else 0) - 0))).
        intros e He. assert (Hne : t <> et e) by (intro X; apply (Ht e He); congruence).
        pose proof (deriv_ramp (et e) t Hne) as D.
        apply (derivable_pt_lim_scal (fun r => ramp (et e) r - ramp (et e) t0)).
        apply (derivable_pt_lim_minus (ramp (et e)) (fun _ => ramp (et e) t0)); [exact D|apply derivable_pt_lim_const].
    + unfold flow; cbn [oa]. apply derivable_pt_lim_const.
Qed.
