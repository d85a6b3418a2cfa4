(** Steps of the simulator. *)
From Coq Require Import Reals QArith Qreals ZArith Lra Lia List Arith Bool.
From Coq Require Lqa.
From Verif Require Import Spline_Model Spline_Spec Splop_Spec Vehicle_Model Vehicle_Spec Lift_Model Lift_Spec
  Loop_Model Loop_Spec Loop_Proofs Loop_Proofs2 Loop_Proofs3 Mission_Model Step_Model Step_Spec.
From Verif Require Grid_Model Timing_Model Timing_Proofs Timing_Proofs2 Concat_Model.
Import ListNotations.
Local Open Scope R_scope.

Lemma prepared_now : forall g w w1, prepared g w = Some w1 -> now w1 = now w.
Proof.
  intros g w w1 H. unfold prepared in H.
  destruct (predict g w _ _ _) as [[s i]|]; [|discriminate]. injection H as <-. reflexivity.
Qed.
Lemma update_prepared : forall g a w w', update g a w = Some w' -> exists w1, prepared g w = Some w1.
Proof. intros g a w w' H. unfold update in H. destruct (prepared g w) as [w1|]; [exists w1; reflexivity|discriminate]. Qed.

Lemma last_appended : forall g m p s l0, (1 <= m)%nat ->
  last (l0 ++ appended g m p s) no_column = nth (m - 1) (appended g m p s) no_column.
Proof.
  intros g m p s l0 M. rewrite Timing_Proofs.last_nth, app_length, appended_length.
  rewrite app_nth2 by lia. f_equal. lia.
Qed.
Lemma update_time : forall g m a w w1, steady g m -> proper_answer g a -> prepared g w = Some w1 ->
  exists w', update g a w = Some w' /\ now w' = now w /\ (c_time (latest w') == now w + upd g)%Q.
Proof.
  intros g m a w w1 ST PA PR. destruct (update_shape g m a w w1 ST PA PR) as (p & L & PL & U).
  rewrite U. eexists. split; [reflexivity|]. pose proof (prepared_now _ _ _ PR) as N. split; [exact N|].
  unfold latest. cbn [log]. pose proof ST as (A & B & C & _).
  rewrite last_appended by exact B. rewrite appended_nth by lia. cbn [c_time].
  destruct (PL m (Nat.le_refl m)) as (T & _). rewrite T, N, C. reflexivity.
Qed.
Lemma chosen_upd : forall g m, steady g m -> Timing_Model.chosen (upd g) (Some (upd g)) = upd g.
Proof. intros g m S. unfold Timing_Model.chosen. destruct (Qeq_bool (upd g) 0); reflexivity. Qed.

Theorem step_shown : forall g m tol goal u a w w1, steady g m -> proper_answer g a -> prepared g w = Some w1 ->
  exists w' s, step g tol goal u a w = Some (w', s) /\
    sh_state s = c_state (latest w') /\ sh_time s = now w' /\ sh_motion s = horizon g /\
    sh_stop s = stop_criterium tol goal w' /\
    (c_time (latest w') == now w + upd g)%Q /\
    (now w' == now w + if (sh_stop s || Qeq_bool u 0)%bool then upd g else u)%Q.
Proof.
  intros g m tol goal u a w w1 ST PA PR. destruct (update_time g m a w w1 ST PA PR) as (w' & U & N & T).
  unfold step. rewrite U. eexists. eexists. split; [reflexivity|].
  cbn [sh_state sh_time sh_motion sh_stop]. repeat (split; [reflexivity|]).
  split; [exact T|]. unfold tick. cbn [now]. rewrite N.
  destruct (stop_criterium tol goal w'); cbn [orb].
  - unfold Timing_Model.chosen. destruct (Qeq_bool _ 0) eqn:Z; [reflexivity|]. rewrite T. ring.
  - unfold Timing_Model.chosen. destruct (Qeq_bool u 0); reflexivity.
Qed.
Theorem step_in_time : forall g m tol goal u a w w1, steady g m -> proper_answer g a -> prepared g w = Some w1 ->
  exists w' s, step g tol goal u a w = Some (w', s) /\
    ((sh_time s == c_time (latest w'))%Q <-> sh_stop s = true \/ (u == 0)%Q \/ (u == upd g)%Q).
Proof.
  intros g m tol goal u a w w1 ST PA PR.
  destruct (step_shown g m tol goal u a w w1 ST PA PR) as (w' & s & E & _ & T & _ & _ & L & N).
  exists w', s. split; [exact E|]. rewrite T, N, L.
  destruct (sh_stop s); cbn [orb].
  - split; [intros _; left; reflexivity|intros _; reflexivity].
  - destruct (Qeq_bool u 0) eqn:Z.
    + apply Qeq_bool_iff in Z. split; [intros _; right; left; exact Z|intros _; reflexivity].
    + apply Qeq_bool_neq in Z. split.
      * intros Q. right. right. Lqa.lra.
      * intros [Q|[Q|Q]]; [discriminate|contradiction|rewrite Q; reflexivity].
Qed.

Lemma advance_tick : forall g m a w w', steady g m -> proper_answer g a -> update g a w = Some w' ->
  advance g w' = tick g (upd g) w'.
Proof.
  intros g m a w w' ST PA U. destruct (update_prepared _ _ _ _ U) as [w1 PR].
  destruct (update_time g m a w w1 ST PA PR) as (w2 & U2 & N & T). rewrite U in U2. injection U2 as <-.
  unfold advance, tick. f_equal. f_equal. rewrite (chosen_upd g m ST).
  unfold latest in T. destruct (log w') as [l|] eqn:L.
  - unfold Timing_Model.run_arg, Grid_Model.Qltb.
    pose proof ST as (A & _).
    assert (X : Qle_bool (upd g - (c_time (last l no_column) - now w')) (ts g) = true).
    { apply Qle_bool_iff. rewrite T, N. Lqa.lra. }
    rewrite X. reflexivity.
  - destruct (update_shape g m a w w1 ST PA PR) as (p & _ & _ & U3). rewrite U in U3. injection U3 as ->. discriminate.
Qed.
Theorem step_pass : forall g m tol goal a w w' s, steady g m -> proper_answer g a ->
  step g tol goal (upd g) a w = Some (w', s) -> sh_stop s = false -> pass g a w = Some w'.
Proof.
  intros g m tol goal a w w' s ST PA E F. unfold step in E. unfold pass.
  destruct (update g a w) as [w2|] eqn:U; [|discriminate]. injection E as <- <-. cbn [sh_stop] in F. rewrite F.
  rewrite (advance_tick g m a w w2 ST PA U). reflexivity.
Qed.
Theorem step_until_run : forall g m tol goal as_ w, steady g m -> Forall (proper_answer g) as_ ->
  step_until g tol goal (upd g) as_ w =
  match run g tol goal as_ w with
  | None => None
  | Some (w', k) =>
    let w2 := tick g (c_time (latest w') - now w')%Q w' in
    Some (w2, k, mkShown (c_state (latest w')) (now w2) (horizon g) true)
  end.
Proof.
  intros g m tol goal as_. induction as_ as [|a r IH]; intros w ST F; cbn [step_until run]; [reflexivity|].
  inversion F as [|? ? PA FR]; subst. unfold step. destruct (update g a w) as [w'|] eqn:U; [|reflexivity].
  destruct (stop_criterium tol goal w') eqn:S; cbn [sh_stop]; [reflexivity|].
  rewrite IH by assumption. rewrite (advance_tick g m a w w' ST PA U).
  destruct (run g tol goal r (tick g (upd g) w')) as [[w2 k]|]; reflexivity.
Qed.
(** after the last step the clock shows the time of the last column *)
Theorem step_until_clock : forall g m tol goal as_ w w' k s, steady g m -> Forall (proper_answer g) as_ ->
  step_until g tol goal (upd g) as_ w = Some (w', k, s) ->
  sh_stop s = true /\ sh_time s = now w' /\ sh_state s = c_state (latest w') /\ (now w' == c_time (latest w'))%Q.
Proof.
  intros g m tol goal as_. induction as_ as [|a r IH]; intros w w' k s ST F E; cbn [step_until] in E; [discriminate|].
  inversion F as [|? ? PA FR]; subst. destruct (step g tol goal (upd g) a w) as [[w1 s1]|] eqn:S; [|discriminate].
  destruct (sh_stop s1) eqn:B.
  - injection E as <- <- <-. assert (P : exists wp, prepared g w = Some wp).
    { unfold step in S. destruct (update g a w) as [wu|] eqn:U; [|discriminate]. exact (update_prepared _ _ _ _ U). }
    destruct P as [wp PR]. destruct (step_shown g m tol goal (upd g) a w wp ST PA PR) as (w2 & s2 & E & A1 & A2 & _ & _ & A3 & A4).
    rewrite S in E. injection E as <- <-. rewrite B in A4. cbn [orb] in A4. split; [exact B|]. split; [exact A2|]. split; [exact A1|].
    rewrite A4, A3. reflexivity.
  - destruct (step_until g tol goal (upd g) r w1) as [[[w2 k2] s2]|] eqn:R; [|discriminate].
    injection E as <- <- <-. exact (IH w1 w2 k2 s2 ST FR R).
Qed.
