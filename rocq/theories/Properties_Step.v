(** Simulating by hand: step, run_once, hard stops, and the obstacles of an environment (C199-C203). *)
From Coq Require Import Reals QArith Qreals ZArith Lra Lia List Arith Bool.
From Verif Require Import Spline_Model Vehicle_Model Loop_Model Loop_Spec Loop_Proofs3 Loop_Examples Loop_Examples2 Loop_Examples3
  Mission_Model Mission_Spec Mission_Examples Step_Model Step_Spec Step_Proofs Step_Proofs2 Step_Proofs3 Step_Proofs4 Step_Proofs5 Step_Examples.
From Verif Require Obst_Proofs.
From Verif Require Import Lift_Examples Lift_Proofs3 Concat_Proofs8.
Import ListNotations.
Local Open Scope R_scope.
Local Notation length := List.length.


(* what step returns, and how far recorded times and the clock get *)
Theorem C199_shown : forall g m tol goal u a w w1, steady g m -> proper_answer g a -> prepared g w = Some w1 ->
  exists w' s, step g tol goal u a w = Some (w', s) /\
    sh_state s = c_state (latest w') /\ sh_time s = now w' /\ sh_motion s = horizon g /\
    sh_stop s = stop_criterium tol goal w' /\
    (c_time (latest w') == now w + upd g)%Q /\
    (now w' == now w + if (sh_stop s || Qeq_bool u 0)%bool then upd g else u)%Q.
Proof. exact step_shown. Qed.
Example C199_shown_ex : exists w' s, step g0 (1/2) [1; 0] 1 a0 (world0 [0; 0] [1/4; 0] [o0]) = Some (w', s) /\ (c_time (latest w') == 0 + 1)%Q.
Proof.
  destruct (C199_shown g0 2 (1/2) [1; 0] 1 a0 _ _ g0_steady a0_proper (prepared_first g0 [0; 0] [1/4; 0] [o0])) as (w' & s & A & _ & _ & _ & _ & B & _).
  exists w', s. split; [exact A|exact B].
Qed.
Print Assumptions C199_shown.

(* the clock is at the last recorded time exactly after a stop, or if the step is as long as the update *)
Theorem C199_in_time : forall g m tol goal u a w w1, steady g m -> proper_answer g a -> prepared g w = Some w1 ->
  exists w' s, step g tol goal u a w = Some (w', s) /\
    ((sh_time s == c_time (latest w'))%Q <-> sh_stop s = true \/ (u == 0)%Q \/ (u == upd g)%Q).
Proof. exact step_in_time. Qed.
Example C199_in_time_ex : exists w' s, step g0 (1/2) [1; 0] 1 a0 (world0 [0; 0] [1/4; 0] [o0]) = Some (w', s) /\ (sh_time s == c_time (latest w'))%Q.
Proof.
  destruct (C199_in_time g0 2 (1/2) [1; 0] 1 a0 _ _ g0_steady a0_proper (prepared_first g0 [0; 0] [1/4; 0] [o0])) as (w' & s & A & B).
  exists w', s. split; [exact A|]. apply B. right. right. reflexivity.
Qed.
Print Assumptions C199_in_time.

(* a step of one update that does not stop is one pass of run *)
Theorem C199_pass : forall g m tol goal a w w' s, steady g m -> proper_answer g a ->
  step g tol goal (upd g) a w = Some (w', s) -> sh_stop s = false -> pass g a w = Some w'.
Proof. exact step_pass. Qed.
Example C199_pass_ex : exists w, pass g0 a0 (world0 [0; 0] [1/4; 0] [o0]) = Some w.
Proof.
  destruct (first_step g0 2 (upd g0) [1; 0] g0_steady a0_proper eq_refl eq_refl) as (w & s & A & B).
  exists w. exact (C199_pass g0 2 (1/10) [1; 0] a0 _ w s g0_steady a0_proper A B).
Qed.
Print Assumptions C199_pass.

(* stepping by the update time until the vehicle stops is run, with the clock set to the last recorded time *)
Theorem C199_run : forall g m tol goal as_ w, steady g m -> Forall (proper_answer g) as_ ->
  step_until g tol goal (upd g) as_ w =
  match run g tol goal as_ w with
  | None => None
  | Some (w', k) =>
    let w2 := tick g (c_time (latest w') - now w')%Q w' in
    Some (w2, k, mkShown (c_state (latest w')) (now w2) (horizon g) true)
  end.
Proof. exact step_until_run. Qed.
Example C199_run_ex : exists w s, step_until g0 (1/2) [1; 0] (upd g0) [a0; a0] (world0 [0; 0] [1/4; 0] [o0]) = Some (w, 1%nat, s).
Proof.
  rewrite (C199_run g0 2 (1/2) [1; 0] [a0; a0] (world0 [0; 0] [1/4; 0] [o0]) g0_steady proper0).
  destruct run0_stops as [w ->]. cbv zeta. eexists. eexists. reflexivity.
Qed.
Print Assumptions C199_run.

(* what the last step returns *)
Theorem C199_clock : forall g m tol goal as_ w w' k s, steady g m -> Forall (proper_answer g) as_ ->
  step_until g tol goal (upd g) as_ w = Some (w', k, s) ->
  sh_stop s = true /\ sh_time s = now w' /\ sh_state s = c_state (latest w') /\ (now w' == c_time (latest w'))%Q.
Proof. exact step_until_clock. Qed.
Example C199_clock_ex : exists w s, step_until g0 (1/2) [1; 0] (upd g0) [a0; a0] (world0 [0; 0] [1/4; 0] [o0]) = Some (w, 1%nat, s) /\
  sh_stop s = true /\ (now w == c_time (latest w))%Q.
Proof.
  destruct steps0 as (w & s & E). exists w, s. split; [exact E|].
  destruct (C199_clock g0 2 (1/2) [1; 0] [a0; a0] _ w 1%nat s g0_steady proper0 E) as (A & _ & _ & B). split; assumption.
Qed.
Print Assumptions C199_clock.

(* after a step of any whole number of samples the next one succeeds *)
Theorem C200_again : forall g m N tol goal u K a b s i obs w1 s1, steady g m -> whole_horizon g N ->
  proper_answer g a -> proper_answer g b -> (1 <= K)%nat -> (u == inject_Z (Z.of_nat K) * ts g)%Q ->
  step g tol goal u a (world0 s i obs) = Some (w1, s1) -> sh_stop s1 = false ->
  exists w2 s2, step g tol goal u b w1 = Some (w2, s2).
Proof. exact step_again. Qed.
Example C200_again_ex : exists w1 s1 w2 s2, step g1 (1/10) [1; 0] (3#10) a0 (world0 [0; 0] [1/4; 0] [o0]) = Some (w1, s1) /\
  step g1 (1/10) [1; 0] (3#10) a0 w1 = Some (w2, s2).
Proof.
  destruct (first_step g1 5 (3#10) [1; 0] g1_steady a0_proper1 eq_refl eq_refl) as (w1 & s1 & A & B). exists w1, s1.
  destruct (C200_again g1 5 40 (1/10) [1; 0] (3#10) 3 a0 a0 _ _ _ w1 s1 g1_steady g1_whole a0_proper1 a0_proper1 ltac:(lia) ltac:(reflexivity) A B)
    as (w2 & s2 & C). exists w2, s2. split; [exact A|exact C].
Qed.
Print Assumptions C200_again.

(* the recorded times of two steps; they are evenly spaced exactly if a step is one update *)
Theorem C200_even : forall g m N tol goal u K a b s i obs w1 s1, steady g m -> whole_horizon g N ->
  proper_answer g a -> proper_answer g b -> (1 <= K)%nat -> (u == inject_Z (Z.of_nat K) * ts g)%Q ->
  step g tol goal u a (world0 s i obs) = Some (w1, s1) -> sh_stop s1 = false ->
  exists w2 s2 l1 l2, step g tol goal u b w1 = Some (w2, s2) /\ log w1 = Some l1 /\ log w2 = Some (l1 ++ l2) /\
    length l1 = S m /\ length l2 = m /\
    (forall j, (j <= m)%nat -> (c_time (nth j l1 no_column) == inject_Z (Z.of_nat j) * ts g)%Q) /\
    (forall j, (j < m)%nat -> (c_time (nth j l2 no_column) == inject_Z (Z.of_nat (K + S j)) * ts g)%Q) /\
    (evenly (ts g) (l1 ++ l2) <-> K = m) /\
    ((K < m)%nat -> (c_time (nth 0 l2 no_column) <= c_time (last l1 no_column))%Q).
Proof. exact steps_even. Qed.
Example C200_even_ex : exists w1 s1 w2 s2 l, step g1 (1/10) [1; 0] (3#10) a0 (world0 [0; 0] [1/4; 0] [o0]) = Some (w1, s1) /\
  step g1 (1/10) [1; 0] (3#10) a0 w1 = Some (w2, s2) /\ log w2 = Some l /\ length l = 11%nat /\ ~ evenly (1#10) l.
Proof.
  destruct (first_step g1 5 (3#10) [1; 0] g1_steady a0_proper1 eq_refl eq_refl) as (w1 & s1 & A & B). exists w1, s1.
  destruct (C200_even g1 5 40 (1/10) [1; 0] (3#10) 3 a0 a0 _ _ _ w1 s1 g1_steady g1_whole a0_proper1 a0_proper1 ltac:(lia) ltac:(reflexivity) A B)
    as (w2 & s2 & l1 & l2 & C & _ & D & L1 & L2 & _ & _ & E & _). exists w2, s2, (l1 ++ l2).
  split; [exact A|]. split; [exact C|]. split; [exact D|]. split; [rewrite app_length; lia|]. intros F. apply E in F. discriminate.
Qed.
Print Assumptions C200_even.

(* with the default argument of step, recorded times go back *)
Theorem C200_default_refuted : exists g m N a goal s i obs w1 s1 w2 s2 l, steady g m /\ whole_horizon g N /\ proper_answer g a /\
  step g (1/10) goal default_step a (world0 s i obs) = Some (w1, s1) /\ step g (1/10) goal default_step a w1 = Some (w2, s2) /\
  sh_stop s1 = false /\ ~ (sh_time s1 == c_time (latest w1))%Q /\
  log w2 = Some l /\ ~ evenly (ts g) l /\
  (c_time (nth (S m) l no_column) < c_time (nth m l no_column))%Q.
Proof. exact default_step_refuted. Qed.
Print Assumptions C200_default_refuted.

(* run_once executes one plan from its start to its end *)
Theorem C201_run_once : forall g N a w, whole_horizon g N -> proper_answer g a -> wellformed g w ->
  exists w' l0 l, run_once g None a w = Some w' /\ before g a w l0 /\ log w' = Some (l0 ++ l) /\ length l = N /\
    executes g a (now w) (c_state (last l0 no_column)) l /\
    (now w' == now w + horizon g)%Q /\ (c_time (last l no_column) == now w')%Q /\
    (ideal_update g = true -> c_state (last l no_column) = map (fun i => call (path a i) 1) (seq 0 (dim g))) /\
    obstacles w' = map (simulate_obstacle g (horizon g - rel g (now w) (now w))) (obstacles w).
Proof. exact run_once_plan. Qed.
Example C201_run_once_ex : exists w' l, run_once g0 None a0 (world0 [0; 0] [1/4; 0] [o0]) = Some w' /\ log w' = Some l /\
  (now w' == 4)%Q /\ (length l >= 9)%nat.
Proof.
  destruct (C201_run_once g0 8 a0 (world0 [0; 0] [1/4; 0] [o0]) g0_whole a0_proper I) as (w' & l0 & l & A & B & C & D & _ & N & _).
  exists w', (l0 ++ l). split; [exact A|]. split; [exact C|]. split; [rewrite N; reflexivity|].
  destruct B as [B|(_ & c & -> & _)]; [discriminate|]. cbn [app length]. lia.
Qed.
Print Assumptions C201_run_once.

(* a hard stop: the plan up to that time, then the disturbed state at rest, from which the next run starts *)
Theorem C202_hard : forall g N a w t e K, whole_horizon g N -> proper_answer g a -> wellformed g w ->
  (log w = None -> length (p_input w) = dim g) -> (1 <= K)%nat -> (t == inject_Z (Z.of_nat K) * ts g)%Q -> length e = dim g ->
  exists w' l0 l, let c := last l no_column in
    run_once g (Some (t, e)) a w = Some w' /\ before g a w l0 /\ length l = Nat.min K N /\
    executes g a (now w) (c_state (last l0 no_column)) l /\
    log w' = Some (l0 ++ removelast l ++ [mkC (c_time c) (vadd (c_state c) e) (repeat 0 (dim g)) (c_dinput c)]) /\
    (now w' == c_time c)%Q /\ (now w' == now w + inject_Z (Z.of_nat (Nat.min K N)) * ts g)%Q /\
    wellformed g w' /\ p_state w' = vadd (c_state c) e /\ p_input w' = repeat 0 (dim g) /\
    next_start g w' = Some (vadd (c_state c) e, repeat 0 (dim g)).
Proof. exact run_once_hard. Qed.
Example C202_hard_ex : exists w' s, run_once g0 (Some (1%Q, [1/10; 0])) a0 (world0 [0; 0] [1/4; 0] [o0]) = Some w' /\
  (now w' == 1)%Q /\ next_start g0 w' = Some (s, [0; 0]).
Proof.
  destruct (C202_hard g0 8 a0 (world0 [0; 0] [1/4; 0] [o0]) 1%Q [1/10; 0] 2 g0_whole a0_proper I (fun _ => eq_refl) ltac:(lia) ltac:(reflexivity) eq_refl)
    as (w' & l0 & l & A & _ & _ & _ & _ & _ & N & _ & _ & _ & X).
  exists w'. eexists. split; [exact A|]. split; [rewrite N; reflexivity|]. exact X.
Qed.
Print Assumptions C202_hard.

(* a plan whose start is constrained as usual starts there *)
Theorem C202_replan : forall g w b s i w1, next_start g w = Some (s, i) -> prepared g (reset w) = Some w1 -> starts_right g w1 b ->
  forall k, (k < dim g)%nat -> plan_at g b 0 k 0 = nth k s 0 /\ plan_at g b 1 k 0 = nth k i 0.
Proof. exact replan. Qed.
Example C202_replan_ex : forall k, (k < 2)%nat -> plan_at g0 b0 0 k 0 = nth k [1/2; 0] 0 /\ plan_at g0 b0 1 k 0 = nth k [0; 0] 0.
Proof.
  intros k K. refine (C202_replan g0 (mkW 3 0 false 0 (Some [mkC 3 [1/2; 0] [1/4; 0] [0; 0]]) None [] [] []) b0 [1/2; 0] [0; 0] _ eq_refl eq_refl _ k K).
  intros i Hi. cbn [p_state p_input last c_state repeat dim g0].
  assert (R0 : (rel g0 3 3 == 0)%Q) by (apply rel_0; reflexivity). cbn [now start_time].
  rewrite !(course_plan g0 b0 _ _ _ _ R0). change (dim g0) with 2%nat in Hi. unfold plan_at. rewrite T0. replace (0 / 4) with 0 by field.
  destruct i as [|[|i]]; [| |lia].
  - pose proof (b_d1 0 ltac:(lia)) as D. change (own b0 0) with (path b0 0) in D. rewrite D, Obst_Proofs.oseg_call by lra.
    change (derivative (path b0 0) 0) with (mkS cbasis [1/2; 1/2; 1/2; 1/2]). rewrite cseg_call by lra. cbn [nth pow]. split; field.
  - pose proof (b_d1 1 ltac:(lia)) as D. change (own b0 1) with (path b0 1) in D. rewrite D, Obst_Proofs.oseg_call by lra.
    change (derivative (path b0 1) 0) with (mkS cbasis [0; 0; 0; 0]). rewrite cseg_call by lra. cbn [nth pow]. split; field.
Qed.
Print Assumptions C202_replan.

(* a hard stop at time 0 records nothing, but the clock advances by one update *)
Theorem C202_zero : forall g N a w e, whole_horizon g N -> proper_answer g a -> ~ (upd g == 0)%Q ->
  exists w', run_once g (Some (0%Q, e)) a w = Some w' /\
    (c_time (latest w') == match log w with Some l => c_time (last l no_column) | None => now w end)%Q /\
    (log w = None -> (now w' == now w + upd g)%Q) /\
    (forall l, log w = Some l -> (c_time (last l no_column) == now w)%Q -> (now w' == now w + upd g)%Q).
Proof. exact hard_zero. Qed.
Example C202_zero_ex : exists w', run_once g0 (Some (0%Q, [0; 0])) a0 (world0 [0; 0] [1/4; 0] [o0]) = Some w' /\ (now w' == 1)%Q /\ (c_time (latest w') == 0)%Q.
Proof.
  destruct (C202_zero g0 8 a0 (world0 [0; 0] [1/4; 0] [o0]) [0; 0] g0_whole a0_proper ltac:(cbn; discriminate)) as (w' & A & B & C & _).
  exists w'. split; [exact A|]. split; [rewrite (C eq_refl); reflexivity|exact B].
Qed.
Print Assumptions C202_zero.

(* so clock and recorded times do not agree after every run_once *)
Theorem C202_zero_refuted : exists g N a w e w', whole_horizon g N /\ proper_answer g a /\
  run_once g (Some (0%Q, e)) a w = Some w' /\ ~ (now w' == c_time (latest w'))%Q.
Proof. exact hard_zero_refuted. Qed.
Print Assumptions C202_zero_refuted.

Local Open Scope nat_scope.
(* add_obstacle takes nested lists in order; a solid in the plane raises *)
Theorem C203_add : forall a e,
  (Forall (fits_in (e_dim e)) (flat a) ->
     exists e', add_obstacle a e = Some e' /\ e_obst e' = e_obst e ++ flat a /\ e_n e' = e_n e + length (flat a) /\
       e_rooms e' = e_rooms e /\ e_dim e' = e_dim e) /\
  (forall o, In o (flat a) -> ~ fits_in (e_dim e) o -> add_obstacle a e = None).
Proof. exact add_obstacle_spec. Qed.
Example C203_add_ex : exists e', add_obstacle (Many [One (mkObst 1 2); Many [One (mkObst 2 2)]]) (mkE [] 2 [mkObst 0 2] 1) = Some e' /\
  e_obst e' = [mkObst 0 2; mkObst 1 2; mkObst 2 2] /\ add_obstacle (Many [One (mkObst 1 2); One (mkObst 2 3)]) e' = None.
Proof.
  assert (F : forall n, fits_in 2 (mkObst n 2)) by (intros n [Q _]; discriminate).
  destruct (proj1 (C203_add (Many [One (mkObst 1 2); Many [One (mkObst 2 2)]]) (mkE [] 2 [mkObst 0 2] 1))) as (e' & A & B & _ & _ & D).
  { apply Forall_cons; [apply F|]. apply Forall_cons; [apply F|]. apply Forall_nil. }
  exists e'. split; [exact A|]. split; [exact B|].
  apply (proj2 (C203_add (Many [One (mkObst 1 2); One (mkObst 2 3)]) e') (mkObst 2 3)); [right; left; reflexivity|].
  intros N. apply N. split; [reflexivity|exact D].
Qed.
Print Assumptions C203_add.

(* a new environment counts its obstacles and completes its rooms *)
Theorem C203_environment : forall rooms obs e, environment rooms obs = Some e ->
  e_obst e = flat (Many obs) /\ e_n e = length (e_obst e) /\ Forall (fits_in (e_dim e)) (e_obst e) /\
  length (e_rooms e) = length rooms /\
  forall i d, i < length rooms -> let r := nth i rooms d in let r' := nth i (e_rooms e) d in
    rm_dim r = e_dim e /\ rm_id r' = rm_id r /\ rm_dim r' = e_dim e /\ rm_obst r' = rm_obst r /\
    rm_pos r' = Some (match rm_pos r with Some p => p | None => repeat 0%R (e_dim e) end) /\
    (exists o, rm_orient r' = Some o /\ forall o', rm_orient r = Some o' -> o = o').
Proof. exact environment_spec. Qed.
Example C203_environment_ex : exists e, environment [mkRoom 0 2 None None None] [One (mkObst 1 2); One (mkObst 2 2)] = Some e /\ e_n e = 2%nat /\
  rm_pos (nth 0 (e_rooms e) (mkRoom 9 0 None None None)) = Some [0; 0]%R.
Proof.
  eexists. split; [reflexivity|].
  destruct (C203_environment [mkRoom 0 2 None None None] [One (mkObst 1 2); One (mkObst 2 2)] _ eq_refl) as (A & B & _ & _ & C).
  split; [exact B|]. exact (proj1 (proj2 (proj2 (proj2 (proj2 (C 0%nat (mkRoom 9 0 None None None) ltac:(cbn; lia))))))).
Qed.
Print Assumptions C203_environment.

(* filling a room: its obstacles are those to avoid in it and belong to the environment; other rooms and the order of earlier obstacles are kept *)
Theorem C203_fill : forall id os e e', fill_room id os e = Some e' ->
  (exists l', e_obst e' = e_obst e ++ l' /\ incl l' os) /\
  (forall o, In o os -> contains e' o) /\
  (NoDup (map ob_id (e_obst e)) -> NoDup (map ob_id (e_obst e'))) /\
  e_n e' = e_n e /\
  exists i, i < length (e_rooms e) /\ length (e_rooms e') = length (e_rooms e) /\ forall d,
    rm_id (nth i (e_rooms e) d) = id /\ to_avoid e' (nth i (e_rooms e') d) = os /\
    (forall j, j <> i -> nth j (e_rooms e') d = nth j (e_rooms e) d).
Proof. exact fill_room_spec. Qed.
Example C203_fill_ex : exists e', fill_room 1 [mkObst 5 2; mkObst 7 2] (mkE [mkRoom 0 2 None None None; mkRoom 1 2 None None None] 2 [mkObst 5 2] 1) = Some e' /\
  e_obst e' = [mkObst 5 2; mkObst 7 2] /\ NoDup (map ob_id (e_obst e')).
Proof.
  eexists. split; [reflexivity|]. split; [reflexivity|].
  apply (proj1 (proj2 (proj2 (C203_fill 1 [mkObst 5 2; mkObst 7 2] (mkE [mkRoom 0 2 None None None; mkRoom 1 2 None None None] 2 [mkObst 5 2] 1) _ eq_refl)))).
  cbn. constructor; [intros []|constructor].
Qed.
Print Assumptions C203_fill.

(* adding obstacles keeps every avoided obstacle in the environment *)
Theorem C203_owns_add : forall a e e', owns e -> add_obstacle a e = Some e' -> owns e'.
Proof. exact owns_add. Qed.
Example C203_owns_add_ex : owns (mkE [mkRoom 0 2 None None None] 2 [mkObst 1 2] 1).
Proof.
  apply (C203_owns_add (One (mkObst 1 2)) (mkE [mkRoom 0 2 None None None] 2 [] 0)); [|reflexivity].
  intros r o [<-|[]] [].
Qed.
Print Assumptions C203_owns_add.

(* and so does filling rooms *)
Theorem C203_owns_fill : forall id os e e', owns e -> fill_room id os e = Some e' -> owns e'.
Proof. exact owns_fill. Qed.
Example C203_owns_fill_ex : owns (mkE [mkRoom 0 2 None None (Some [mkObst 7 2])] 2 [mkObst 7 2] 0).
Proof.
  apply (C203_owns_fill 0 [mkObst 7 2] (mkE [mkRoom 0 2 None None None] 2 [] 0)); [|reflexivity].
  intros r o [<-|[]] [].
Qed.
Print Assumptions C203_owns_fill.

(* a copy has new obstacles, in the same order, and avoids only these if no room was filled *)
Theorem C203_copy : forall fresh e e', copy fresh e = Some e' ->
  map ob_id (e_obst e') = map fresh (map ob_id (e_obst e)) /\ e_n e' = length (e_obst e) /\
  (Forall (fun r => rm_obst r = None) (e_rooms e) -> owns e').
Proof. exact copy_spec. Qed.
Example C203_copy_ex : exists e', copy (fun n => (n + 10)%nat) (mkE [mkRoom 0 2 None None None] 2 [mkObst 1 2; mkObst 2 2] 2) = Some e' /\
  map ob_id (e_obst e') = [11; 12]%nat /\ owns e'.
Proof.
  eexists. split; [reflexivity|].
  destruct (C203_copy (fun n => (n + 10)%nat) (mkE [mkRoom 0 2 None None None] 2 [mkObst 1 2; mkObst 2 2] 2) _ eq_refl) as (A & _ & B).
  split; [exact A|]. apply B. apply Forall_cons; [reflexivity|apply Forall_nil].
Qed.
Print Assumptions C203_copy.

(* filling a room does not count its obstacles *)
Theorem C203_count_refuted : exists id os e e', environment (e_rooms e) [] = Some e /\ fill_room id os e = Some e' /\
  e_n e' <> length (e_obst e').
Proof. exact fill_count_refuted. Qed.
Print Assumptions C203_count_refuted.

(* obstacles of an earlier filling stay *)
Theorem C203_replace_refuted : exists id o1 o2 e e1 e2, environment (e_rooms e) [] = Some e /\
  fill_room id [o1] e = Some e1 /\ fill_room id [o2] e1 = Some e2 /\
  contains e2 o1 /\ forall r, In r (e_rooms e2) -> ~ In o1 (to_avoid e2 r).
Proof. exact fill_replaces_refuted. Qed.
Print Assumptions C203_replace_refuted.

(* a copy of an environment with a filled room avoids obstacles of the original *)
Theorem C203_copy_refuted : exists fresh id os e e1 e2, environment (e_rooms e) [] = Some e /\
  fill_room id os e = Some e1 /\ copy fresh e1 = Some e2 /\ owns e1 /\ ~ owns e2.
Proof. exact copy_owns_refuted. Qed.
Print Assumptions C203_copy_refuted.
