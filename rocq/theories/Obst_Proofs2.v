(** Simulated obstacles follow their scheduled motion; measured states. *)
From Coq Require Import Reals List Arith Lia Lra.
From Verif Require Import Spline_Model Spline_Spec Spline_Proofs Obst_Model Obst_Spec Obst_Proofs.
Import ListNotations.
Local Open Scope R_scope.

Definition cx (t0 t : R) (e : event) : R :=
  if Rleb (et e) t then if Rleb (et e) t0 then 0 else newton (edx e) (edv e) (eda e) (t - et e) else 0.
Definition cv (t0 t : R) (e : event) : R :=
  if Rleb (et e) t then if Rleb (et e) t0 then 0 else edv e + eda e * (t - et e) else 0.
Definition ca (t0 t : R) (e : event) : R :=
  if Rleb (et e) t then if Rleb (et e) t0 then 0 else eda e else 0.
Definition motion (evs : list event) (t0 : R) (s : ost) (t : R) : ost :=
  mkO (newton (ox s) (ov s) (oa s) (t - t0) + sumR (map (cx t0 t) evs))
      (ov s + oa s * (t - t0) + sumR (map (cv t0 t) evs))
      (oa s + sumR (map (ca t0 t) evs)).

Ltac casel x y := let H := fresh "L" in let E := fresh "E" in
  destruct (Rleb_dec x y) as [[H E]|[H E]]; rewrite ?E in *.

Lemma moved_motion : forall evs t0 s t, moved_to evs t0 s t (motion evs t0 s t).
Proof.
  induction evs as [|e evs IH]; intros t0 s t.
  - unfold motion; cbn [map sumR fold_right]. rewrite !Rplus_0_r. apply moved_none.
  - specialize (IH t0 s t). remember (motion evs t0 s t) as m eqn:Em.
    assert (D : (t0 < et e <= t /\
        motion (e :: evs) t0 s t = mkO (ox m + newton (edx e) (edv e) (eda e) (t - et e))
           (ov m + edv e + eda e * (t - et e)) (oa m + eda e)) \/
       (~ (t0 < et e <= t) /\ motion (e :: evs) t0 s t = m)).
    { subst m. unfold motion, cx, cv, ca; cbn [map sumR fold_right ox ov oa].
      casel (et e) t; casel (et e) t0; try (right; split; [lra|f_equal; unfold sumR; ring]).
      left. split; [lra|]. f_equal; unfold sumR; ring. }
    destruct D as [[H ->]|[H ->]]; [apply moved_event|apply moved_other]; assumption.
Qed.

Lemma moved_unique : forall evs t0 s t s1 s2,
  moved_to evs t0 s t s1 -> moved_to evs t0 s t s2 -> s1 = s2.
Proof.
  intros evs t0 s t s1 s2 H. revert s2. induction H; intros s2 H2.
  - inversion H2; subst. reflexivity.
  - inversion H2; subst; [now apply IHmoved_to|contradiction].
  - inversion H2; subst; [contradiction|]. rewrite (IHmoved_to s'0); [reflexivity|assumption].
Qed.

Lemma moved_iff : forall evs t0 s t s', moved_to evs t0 s t s' <-> s' = motion evs t0 s t.
Proof.
  intros. split; [|intros ->; apply moved_motion].
  intro H. eapply moved_unique; [exact H|apply moved_motion].
Qed.

Lemma incr0 : forall sel evs, (forall e, In e evs -> 0 < et e) -> incr sel evs 0 = 0.
Proof.
  intros sel evs. induction evs as [|e evs IH]; intros H; [reflexivity|].
  unfold incr in *. cbn [map sumR fold_right]. unfold sumR in IH. rewrite IH by (intros; apply H; now right).
  specialize (H e (or_introl eq_refl)). casel (et e) 0; [lra|ring].
Qed.

Lemma sample_motion : forall evs t0 s t, (forall e, In e evs -> 0 < et e) -> t0 <= t ->
  sample_at evs t0 s t = motion evs t0 s t.
Proof.
  intros evs t0 s t Hpos Ht. unfold sample_at.
  replace (if Reqb t0 0 then s else mkO (ox s - incr edx evs t0) (ov s - incr edv evs t0) (oa s - incr eda evs t0))
  with (mkO (ox s - incr edx evs t0) (ov s - incr edv evs t0) (oa s - incr eda evs t0)).
  2:{ destruct (Reqb t0 0) eqn:E; [|reflexivity]. apply Reqb_true in E. subst.
      rewrite !incr0 by assumption. destruct s as [x v a]; cbn [ox ov oa]. f_equal; ring. }
  clear Hpos. unfold flow, motion; cbn [ox ov oa]. f_equal.
  - unfold newton.
    assert (G : - incr edx evs t0 - incr edv evs t0 * (t - t0) - incr eda evs t0 * (t - t0)^2 / 2
      + sumR (map (fun e => edv e * (ramp (et e) t - ramp (et e) t0)
                + eda e * ((ramp (et e) t)^2/2 - (ramp (et e) t0)^2/2 - ramp (et e) t0 * (t - t0))) evs)
      + incr edx evs t = sumR (map (cx t0 t) evs)).
    { unfold incr. induction evs as [|e evs IH]; cbn [map sumR fold_right]; [unfold sumR; simpl; field|].
      unfold sumR in IH |- *. rewrite <- IH. unfold cx, ramp, newton.
      casel (et e) t; casel (et e) t0; try lra; field. }
    rewrite <- G. field.
  - assert (G : - incr edv evs t0 - incr eda evs t0 * (t - t0)
      + sumR (map (fun e => eda e * (ramp (et e) t - ramp (et e) t0)) evs)
      + incr edv evs t = sumR (map (cv t0 t) evs)).
    { unfold incr. induction evs as [|e evs IH]; cbn [map sumR fold_right]; [unfold sumR; simpl; field|].
      unfold sumR in IH |- *. rewrite <- IH. unfold cv, ramp.
      casel (et e) t; casel (et e) t0; try lra; field. }
    rewrite <- G. field.
  - assert (G : - incr eda evs t0 + incr eda evs t = sumR (map (ca t0 t) evs)).
    { unfold incr. induction evs as [|e evs IH]; cbn [map sumR fold_right]; [unfold sumR; simpl; field|].
      unfold sumR in IH |- *. rewrite <- IH. unfold ca, ramp.
      casel (et e) t; casel (et e) t0; try lra; field. }
    rewrite <- G. field.
Qed.

Lemma motion_comp : forall evs t0 s t1 t, t0 <= t1 <= t ->
  motion evs t1 (motion evs t0 s t1) t = motion evs t0 s t.
Proof.
  intros evs t0 s t1 t Ht. unfold motion; cbn [ox ov oa]. unfold newton at 1 2.
  assert (G3 : sumR (map (ca t0 t1) evs) + sumR (map (ca t1 t) evs) = sumR (map (ca t0 t) evs)).
  { induction evs as [|e evs IH]; cbn [map sumR fold_right]; [unfold sumR; simpl; ring|].
    unfold sumR in IH |- *. rewrite <- IH. unfold ca.
    casel (et e) t; casel (et e) t0; casel (et e) t1; try lra; ring. }
  assert (G2 : sumR (map (cv t0 t1) evs) + sumR (map (ca t0 t1) evs) * (t - t1) + sumR (map (cv t1 t) evs)
      = sumR (map (cv t0 t) evs)).
  { clear G3. induction evs as [|e evs IH]; cbn [map sumR fold_right]; [unfold sumR; simpl; ring|].
    unfold sumR in IH |- *. rewrite <- IH. unfold ca, cv.
    casel (et e) t; casel (et e) t0; casel (et e) t1; try lra; ring. }
  assert (G1 : sumR (map (cx t0 t1) evs) + sumR (map (cv t0 t1) evs) * (t - t1)
      + sumR (map (ca t0 t1) evs) * (t - t1)^2/2 + sumR (map (cx t1 t) evs)
      = sumR (map (cx t0 t) evs)).
  { clear G3 G2. induction evs as [|e evs IH]; cbn [map sumR fold_right]; [unfold sumR; simpl; field|].
    unfold sumR in IH |- *. rewrite <- IH. unfold ca, cv, cx, newton.
    casel (et e) t; casel (et e) t0; casel (et e) t1; try lra; field. }
  f_equal.
  - rewrite <- G1. unfold newton. field.
  - rewrite <- G2. ring.
  - rewrite <- G3. ring.
Qed.

Lemma moved_compose : forall evs t0 s t1 s1 t s2, t0 <= t1 <= t ->
  moved_to evs t0 s t1 s1 -> moved_to evs t1 s1 t s2 -> moved_to evs t0 s t s2.
Proof.
  intros evs t0 s t1 s1 t s2 Ht H1 H2. apply moved_iff in H1. apply moved_iff in H2. subst.
  rewrite motion_comp by assumption. apply moved_motion.
Qed.

Lemma sample_moved : forall evs t0 s t, (forall e, In e evs -> 0 < et e) -> t0 <= t ->
  moved_to evs t0 s t (sample_at evs t0 s t).
Proof. intros. apply moved_iff. now apply sample_motion. Qed.

(* every recorded sample lies on the motion that starts in s0 at time 0 *)
Definition on_motion (evs : list event) (s0 : ost) (l : olog) : Prop :=
  length (ltime l) = length (lstate l) /\ ltime l <> [] /\
  (forall i, (i < length (ltime l))%nat -> 0 <= nth i (ltime l) 0) /\
  (forall i, (i < length (ltime l))%nat ->
     moved_to evs 0 s0 (nth i (ltime l) 0) (nth i (lstate l) ost0)).

Lemma last_nth : forall (A : Type) (l : list A) d, last l d = nth (length l - 1) l d.
Proof.
  intros A l d. induction l as [|a l IH]; [reflexivity|].
  destruct l as [|b l]; [reflexivity|]. change (last (a :: b :: l) d) with (last (b :: l) d).
  rewrite IH. cbn [length]. replace (S (S (length l)) - 1)%nat with (S (S (length l) - 1)) by lia.
  reflexivity.
Qed.

Lemma simulate_on_motion : forall evs s0 n dt l, (forall e, In e evs -> 0 < et e) -> 0 <= dt ->
  on_motion evs s0 l -> on_motion evs s0 (simulate evs n dt l).
Proof.
  intros evs s0 n dt l Hpos Hdt (HL & Hne & H0 & HM).
  assert (Hl : (0 < length (ltime l))%nat) by (destruct (ltime l); [congruence|simpl; lia]).
  unfold simulate, on_motion; cbn [ltime lstate]. set (t0 := last (ltime l) 0). set (s := last (lstate l) ost0).
  assert (Ht0 : 0 <= t0) by (unfold t0; rewrite last_nth; apply H0; lia).
  assert (Hs : moved_to evs 0 s0 t0 s).
  { unfold t0, s. rewrite !last_nth, <- HL. apply HM. lia. }
  assert (HI : forall k, 0 <= INR k * dt) by (intros; apply Rmult_le_pos; [apply pos_INR|assumption]).
  set (ts := map (fun k => t0 + INR k * dt) (seq 1 n)).
  assert (Lts : length ts = n) by (unfold ts; rewrite map_length, seq_length; reflexivity).
  assert (Nts : forall j, (j < n)%nat -> nth j ts 0 = t0 + INR (S j) * dt).
  { intros j Hj. unfold ts. rewrite (nth_indep _ 0 ((fun k => t0 + INR k * dt) 0%nat)) by (rewrite map_length, seq_length; assumption).
    rewrite (map_nth (fun k => t0 + INR k * dt)), seq_nth by assumption. reflexivity. }
  split; [rewrite !app_length, map_length, HL; reflexivity|].
  split; [destruct (ltime l); [congruence|discriminate]|].
  split; intros i Hi; rewrite app_length, Lts in Hi;
  destruct (Nat.lt_ge_cases i (length (ltime l))).
  - rewrite app_nth1 by assumption. now apply H0.
  - rewrite app_nth2 by assumption. rewrite Nts by lia. specialize (HI (S (i - length (ltime l)))). lra.
  - rewrite !app_nth1 by (try rewrite <- HL; assumption). now apply HM.
  - rewrite !app_nth2 by (try rewrite <- HL; assumption).
    rewrite <- HL. set (j := (i - length (ltime l))%nat). assert (Hj : (j < n)%nat) by (unfold j; lia).
    rewrite (nth_indep _ ost0 (sample_at evs t0 s 0)) by (rewrite map_length, Lts; assumption).
    rewrite map_nth, Nts by assumption.
    apply (moved_compose evs 0 s0 t0 s).
    + specialize (HI (S j)). lra.
    + exact Hs.
    + apply sample_moved; [assumption|]. specialize (HI (S j)). lra.
Qed.

Lemma log0_on_motion : forall evs s, (forall e, In e evs -> 0 < et e) -> on_motion evs s (log0 s).
Proof.
  intros evs s H. unfold on_motion, log0; cbn [ltime lstate length].
  split; [reflexivity|]. split; [discriminate|]. split; intros i Hi; replace i with 0%nat by lia; cbn [nth]; [lra|].
  apply moved_iff. unfold motion. destruct s as [x v a]; cbn [ox ov oa].
  assert (Z : forall f, (forall e, 0 < et e -> f e = 0) -> sumR (map f evs) = 0).
  { intros f Hf. induction evs as [|e evs IH]; cbn [map sumR fold_right]; [reflexivity|].
    unfold sumR in IH. rewrite IH, Hf; [ring|apply H; now left|intros; apply H; now right]. }
  rewrite !Z; [unfold newton; f_equal; field| | |]; intros e He; unfold cx, cv, ca; casel (et e) 0; try lra; reflexivity.
Qed.

(* number of calls, samples per call *)
Fixpoint simulate_runs (evs : list event) (runs : list (nat * R)) (l : olog) : olog :=
  match runs with [] => l | (n, dt) :: r => simulate_runs evs r (simulate evs n dt l) end.

Lemma runs_on_motion : forall evs s runs, (forall e, In e evs -> 0 < et e) ->
  (forall r, In r runs -> 0 <= snd r) ->
  on_motion evs s (simulate_runs evs runs (log0 s)).
Proof.
  intros evs s runs Hpos Hr. assert (G : forall l, on_motion evs s l -> on_motion evs s (simulate_runs evs runs l)).
  { induction runs as [|[n dt] runs IH]; intros l Hl; [exact Hl|]. cbn [simulate_runs]. apply IH.
    - intros r Hi. apply Hr. now right.
    - apply simulate_on_motion; [assumption| |assumption]. apply (Hr (n, dt)). now left. }
  apply G. now apply log0_on_motion.
Qed.

(* jumps read from the user's trajectories: time 0 excluded *)
Lemma events_positive : forall tp tv ta, (forall p, In p (tp ++ tv ++ ta) -> 0 <= fst p) ->
  forall e, In e (events_of tp tv ta) -> 0 < et e.
Proof.
  intros tp tv ta H e He. unfold events_of in He. rewrite !in_app_iff in He.
  assert (G : forall l f, (forall p, et (f p) = fst p) -> (forall p, In p l -> In p (tp ++ tv ++ ta)) ->
    In e (map f (filter (fun p : R * R => negb (Reqb (fst p) 0)) l)) -> 0 < et e).
  { intros l f Hf Hl Hi. apply in_map_iff in Hi. destruct Hi as (p & <- & Hp). apply filter_In in Hp.
    destruct Hp as [Hp Hz]. apply Bool.negb_true_iff, Reqb_false in Hz. specialize (H p (Hl p Hp)). rewrite Hf. lra. }
  destruct He as [He|[He|He]]; (eapply G; [| |exact He]; [reflexivity|intros p Hp; rewrite !in_app_iff; tauto]).
Qed.

Lemma events_exact : forall tp tv ta e, In e (events_of tp tv ta) <->
  (exists t x, t <> 0 /\ In (t, x) tp /\ e = mkE t x 0 0) \/
  (exists t x, t <> 0 /\ In (t, x) tv /\ e = mkE t 0 x 0) \/
  (exists t x, t <> 0 /\ In (t, x) ta /\ e = mkE t 0 0 x).
Proof.
  intros tp tv ta e. unfold events_of. rewrite !in_app_iff.
  assert (G : forall l f, In e (map f (filter (fun p : R * R => negb (Reqb (fst p) 0)) l)) <->
     exists t x, t <> 0 /\ In (t, x) l /\ e = f (t, x)).
  { intros l f. rewrite in_map_iff. split.
    - intros ([t x] & <- & Hp). apply filter_In in Hp. destruct Hp as [Hp Hz].
      apply Bool.negb_true_iff, Reqb_false in Hz. exists t, x. auto.
    - intros (t & x & Ht & Hi & ->). exists (t, x). split; [reflexivity|]. apply filter_In. split; [assumption|].
      apply Bool.negb_true_iff, Reqb_false. exact Ht. }
  rewrite !G. cbn [fst snd]. tauto.
Qed.

(* prediction and simulation agree as long as no jump is scheduled *)
Lemma prediction_simulation : forall evs now s t T r, 0 < T -> 0 <= t -> t <= r <= T ->
  (forall e, In e evs -> 0 < et e) ->
  (forall e, In e evs -> ~ (now < et e <= now + (r - t))) ->
  call (pos_spline (ox s) (ov s) (oa s) t T) (r / T) = ox (sample_at evs now s (now + (r - t))).
Proof.
  intros evs now s t T r HT Ht Hr Hpos Hno. rewrite pos_spline_newton by lra.
  rewrite sample_motion by (try assumption; lra). unfold motion; cbn [ox].
  replace (now + (r - t) - now) with (r - t) by ring.
  assert (Z : sumR (map (cx now (now + (r - t))) evs) = 0).
  { clear Hpos. induction evs as [|e evs IH]; cbn [map sumR fold_right]; [reflexivity|].
    unfold sumR in IH. rewrite IH by (intros; apply Hno; now right).
    specialize (Hno e (or_introl eq_refl)). unfold cx. casel (et e) (now + (r - t)); [|ring].
    casel (et e) now; [ring|]. lra. }
  rewrite Z. ring.
Qed.

Lemma prediction_refuted : exists evs now s t T r, 0 < T /\ 0 <= t /\ t <= r <= T /\
  (forall e, In e evs -> 0 < et e) /\
  call (pos_spline (ox s) (ov s) (oa s) t T) (r / T) <> ox (sample_at evs now s (now + (r - t))).
Proof.
  exists [mkE (1/2) 0 1 0], 0, (mkO 0 0 0), 0, 1, 1.
  split; [lra|]. split; [lra|]. split; [lra|].
  assert (P : forall e, In e [mkE (1/2) 0 1 0] -> 0 < et e) by (intros e [<-|[]]; cbn; lra).
  split; [exact P|]. rewrite pos_spline_newton by lra. rewrite sample_motion by (try assumption; lra).
  unfold motion, cx, newton; cbn [ox ov oa map sumR fold_right et edx edv eda].
  casel (1/2) (0 + (1 - 0)); casel (1/2) 0; try lra.
Qed.

(* measured state: the simulation goes on from it *)
Lemma set_state_next : forall evs n dt l s j, (forall e, In e evs -> 0 < et e) -> 0 <= dt ->
  (j < n)%nat ->
  let l' := simulate evs n dt (set_state s l) in
  let t0 := last (ltime l) 0 in
  moved_to evs t0 s (t0 + INR (S j) * dt) (nth (S j) (lstate l') ost0).
Proof.
  intros evs n dt l s j Hpos Hdt Hj. cbn zeta. unfold simulate, set_state; cbn [ltime lstate].
  set (t0 := last (ltime l) 0). cbn [last app nth].
  rewrite (nth_indep _ ost0 (sample_at evs t0 s (t0 + INR 0 * dt))) by (rewrite !map_length, seq_length; assumption).
  rewrite map_nth, (map_nth (fun k => t0 + INR k * dt)), seq_nth by assumption.
  apply sample_moved; [assumption|].
  assert (0 <= INR (1 + j) * dt) by (apply Rmult_le_pos; [apply pos_INR|assumption]). cbn [Nat.add] in *. lra.
Qed.

(* after a measured state the recorded times and states no longer line up *)
Lemma set_state_lengths_refuted : exists evs n dt l s,
  length (ltime l) = length (lstate l) /\
  length (ltime (simulate evs n dt (set_state s l))) <>
  length (lstate (simulate evs n dt (set_state s l))).
Proof.
  exists [], 1%nat, 1, (simulate [] 1 1 (log0 ost0)), ost0. split; [reflexivity|]. cbn. lia.
Qed.

Lemma set_state_lengths : forall evs n dt l s,
  length (ltime (simulate evs n dt (set_state s l))) = (length (ltime l) + n)%nat /\
  length (lstate (simulate evs n dt (set_state s l))) = (1 + n)%nat.
Proof.
  intros. unfold simulate, set_state; cbn [ltime lstate].
  rewrite !app_length, !map_length, seq_length. split; reflexivity.
Qed.

(* value given for time 0 *)
Lemma initial_first : forall init v rest, initial_value init ((0, v) :: rest) = v.
Proof. intros. unfold initial_value. cbn [existsb fst hd snd]. rewrite (proj2 (Reqb_true 0 0)) by reflexivity. reflexivity. Qed.
Lemma initial_absent : forall init traj, (forall p, In p traj -> fst p <> 0) -> initial_value init traj = init.
Proof.
  intros init traj H. unfold initial_value. destruct (existsb _ traj) eqn:E; [|reflexivity].
  apply existsb_exists in E. destruct E as (p & Hp & Hz). apply Reqb_true in Hz. elim (H p Hp Hz).
Qed.
Lemma initial_refuted : exists init traj v, In (0, v) traj /\
  (forall w, In (0, w) traj -> w = v) /\ initial_value init traj <> v.
Proof.
  exists 0, [(1, 2); (0, 5)], 5. split; [right; left; reflexivity|]. split.
  - intros w [H|[H|[]]]; inversion H; [lra|reflexivity].
  - unfold initial_value. cbn [existsb fst hd snd]. rewrite (proj2 (Reqb_true 0 0)) by reflexivity.
    rewrite Bool.orb_true_r. lra.
Qed.

(* orientation *)
Lemma rotate_app : forall n dt w l, rotate (S n) dt w l = rotate n dt w l ++ [last (rotate n dt w l) 0 + dt * w].
Proof.
  induction n as [|n IH]; intros dt w l; [reflexivity|].
  change (rotate (S (S n)) dt w l) with (rotate (S n) dt w (l ++ [last l 0 + dt * w])).
  rewrite IH. reflexivity.
Qed.
Lemma rotate_sample : forall n dt w th k, (k <= n)%nat ->
  length (rotate n dt w [th]) = S n /\ nth k (rotate n dt w [th]) 0 = th + w * (INR k * dt).
Proof.
  induction n as [|n IH]; intros dt w th k Hk.
  - replace k with 0%nat by lia. cbn. split; [reflexivity|ring].
  - rewrite rotate_app. destruct (IH dt w th n (le_n n)) as [Hl Hn]. split.
    + rewrite app_length, Hl. simpl. lia.
    + destruct (Nat.le_gt_cases k n).
      * rewrite app_nth1 by lia. apply IH. assumption.
      * replace k with (S n) by lia. rewrite app_nth2 by lia. rewrite Hl, Nat.sub_diag. cbn [nth].
        rewrite last_nth, Hl. replace (S n - 1)%nat with n by lia. rewrite Hn, S_INR. ring.
Qed.
