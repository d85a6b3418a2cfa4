(** Initial guesses of the GCode scheduler and free ends (C195-C198). *)
From Coq Require Import Reals List Bool Arith Lia Lra.
From Verif Require Import Spline_Model Spline_Spec Splop_Spec Vehicle_Model Vehicle_Spec Lift_Model Lift_Spec Lift_Proofs2 Lift_Proofs3 Angle_Model
  Warm_Model Warm_Spec Warm_Proofs Warm_Proofs2 Warm_Examples.
From Verif Require Gmove_Model Loop_Model.
Import ListNotations.
Local Open Scope R_scope.


(* before the first solution every segment gets a guess of its own *)
Theorem C195_first : forall (A : Type) (fresh : nat -> option A) n0 n l, get_init_guess None fresh n0 n = Some l ->
  length l = n /\ forall k, (k < n)%nat -> nth_error l k = fresh k.
Proof. exact first_guess. Qed.
Example C195_first_ex : nth_error [10; 11; 12]%nat 2 = Some 12%nat.
Proof. exact (proj2 (C195_first nat (fun k => Some (10 + k)%nat) 3 3 [10; 11; 12]%nat eq_refl) 2%nat ltac:(lia)). Qed.
Print Assumptions C195_first.

(* afterwards segment k starts from the solution of segment k + 1 and the last one from a new guess *)
Theorem C195_next : forall (A : Type) (o : list A) fresh n0 n l, (1 < n <= n0)%nat -> get_init_guess (Some o) fresh n0 n = Some l ->
  length l = n /\ (forall k, (k < n - 1)%nat -> nth_error l k = nth_error o (S k)) /\ nth_error l (n - 1) = fresh (n - 1)%nat.
Proof. exact next_guess. Qed.
Example C195_next_ex : exists l, get_init_guess (Some [20; 21; 22]%nat) (fun k => Some (10 + k)%nat) 3 3 = Some l /\ l = [21; 22; 12]%nat /\
  nth_error l 1 = nth_error [20; 21; 22]%nat 2.
Proof.
  eexists. split; [reflexivity|]. split; [reflexivity|].
  exact (proj1 (proj2 (C195_next nat [20; 21; 22]%nat (fun k => Some (10 + k)%nat) 3 3 [21; 22; 12]%nat ltac:(lia) eq_refl)) 1%nat ltac:(lia)).
Qed.
Print Assumptions C195_next.

(* the last segment starts from the solution of the second one *)
Theorem C195_last : forall (A : Type) (o : list A) fresh n0, (1 < n0)%nat ->
  get_init_guess (Some o) fresh n0 1 = match nth_error o 1 with Some x => Some [x] | None => None end.
Proof. exact last_guess. Qed.
Example C195_last_ex : get_init_guess (Some [20; 21]%nat) (fun _ => None) 2 1 = Some [21%nat].
Proof. exact (C195_last nat [20; 21]%nat (fun _ => None) 2 ltac:(lia)). Qed.
Print Assumptions C195_last.

(* with one segment at a time there is always a new guess *)
Theorem C195_single : forall (A : Type) (o : list A) fresh,
  get_init_guess (Some o) fresh 1 1 = match fresh 0%nat with Some x => Some [x] | None => None end.
Proof. exact single_guess. Qed.
Example C195_single_ex : get_init_guess (Some [20]%nat) (fun k => Some (10 + k)%nat) 1 1 = Some [10%nat].
Proof. exact (C195_single nat [20]%nat (fun k => Some (10 + k)%nat)). Qed.
Print Assumptions C195_single.

(* there is one guess for each segment when the last solution has as many segments, and at least two if several are combined *)
Theorem C195_made : forall (A : Type) (old : option (list A)) fresh n0 n, (1 <= n <= n0)%nat ->
  (forall k, (k < n)%nat -> fresh k <> None) ->
  (forall o, old = Some o -> (n <= length o)%nat /\ ((1 < n0)%nat -> (1 < length o)%nat)) ->
  exists l, get_init_guess old fresh n0 n = Some l /\ length l = n.
Proof. exact guess_made. Qed.
Example C195_made_ex : exists l, get_init_guess (Some [20; 21]%nat) (fun k => Some (10 + k)%nat) 3 2 = Some l /\ length l = 2%nat.
Proof.
  apply C195_made; [lia|discriminate|]. intros o E. injection E as <-. cbn. lia.
Qed.
Print Assumptions C195_made.

(* after a solution with one segment, no guess can be made for one segment when several may be combined *)
Theorem C195_made_refuted : exists (old : list nat) fresh, old <> [] /\ (forall k, fresh k <> None) /\
  get_init_guess (Some old) fresh 2 1 = None.
Proof. exact guess_made_refuted. Qed.
Print Assumptions C195_made_refuted.

(* the guess stays in the ring up to the error of the operators *)
Theorem C196_close : forall tol X p rin rout tau, 0 <= tol -> on_unit (X 0%nat) -> on_unit (X 1%nat) -> 0 <= tau <= 1 ->
  solved tol X (ring_cons (fst p) (snd p) rin rout) ->
  let d := drift_max tol X (ring_exprs p rin rout) in
  rin ^ 2 - d <= apart p (at_time X tau) ^ 2 <= rout ^ 2 + d.
Proof. exact ring_close. Qed.
Example C196_close_ex : 2 ^ 2 - drift_max 0 X_ring (ring_exprs (0, 0) 2 3) <= apart (0, 0) (at_time X_ring (1/2)) ^ 2 <= 3 ^ 2 + drift_max 0 X_ring (ring_exprs (0, 0) 2 3).
Proof. exact (C196_close 0 X_ring (0, 0) 2 3 (1/2) (Rle_refl 0) (ring_unit 0) (ring_unit 1) ltac:(lra) ring_solved_ex). Qed.
Print Assumptions C196_close.

(* with exact operators it is in the ring at all moments *)
Theorem C196_stays : forall X p rin rout tau, on_unit (X 0%nat) -> on_unit (X 1%nat) -> 0 <= tau <= 1 -> 0 <= rin -> 0 <= rout ->
  solved 0 X (ring_cons (fst p) (snd p) rin rout) -> rin <= apart p (at_time X tau) <= rout.
Proof. exact ring_stays. Qed.
Example C196_stays_ex : 2 <= apart (0, 0) (at_time X_ring (1/3)) <= 3.
Proof. exact (C196_stays X_ring (0, 0) 2 3 (1/3) (ring_unit 0) (ring_unit 1) ltac:(lra) ltac:(lra) ltac:(lra) ring_solved_ex). Qed.
Print Assumptions C196_stays.

(* it begins at the start and finishes at the end of the segment, at rest and without acceleration *)
Theorem C196_ends : forall X s e, ring_held X s e ->
  at_time X 0 = s /\ at_time X 1 = e /\
  forall i o tau, (i < 2)%nat -> (1 <= o <= 2)%nat -> tau = 0 \/ tau = 1 -> call (derivative (X i) o) tau = 0.
Proof. exact ring_held_ends. Qed.
Example C196_ends_ex : at_time X_held 1 = (0, 2) /\ call (derivative (X_held 0%nat) 2) 1 = 0.
Proof.
  destruct (C196_ends X_held (2, 0) (0, 2) held_ex) as (_ & E & D). split; [exact E|]. apply D; [lia|lia|right; reflexivity].
Qed.
Print Assumptions C196_ends.

(* the solver starts from points spread evenly over the arc, turning in the direction of the segment by less than a full turn *)
Theorem C196_start : forall n d p s e, (1 < n)%nat -> exists th0 th1,
  around p (apart p s) th0 = s /\ around p (apart p e) th1 = e /\
  match d with Gmove_Model.CW => th1 <= th0 < th1 + 2 * PI | Gmove_Model.CCW => th0 <= th1 < th0 + 2 * PI end /\
  length (ring_first n d p s e) = n /\
  forall k, (k < n)%nat -> nth k (ring_first n d p s e) (0, 0) = around p (apart p s) (th0 + INR k / INR (n - 1) * (th1 - th0)).
Proof. exact ring_start. Qed.
Example C196_start_ex : exists th0 th1, around (0, 0) (apart (0, 0) (2, 0)) th0 = (2, 0) /\ th1 <= th0 < th1 + 2 * PI.
Proof.
  destruct (C196_start 7 Gmove_Model.CW (0, 0) (2, 0) (0, 2) ltac:(lia)) as (a & b & S & _ & D & _). exists a, b. split; [exact S|exact D].
Qed.
Print Assumptions C196_start.

(* the first of these is the start, all have its distance, and the last is the end exactly if that has the same distance *)
Theorem C196_start_ends : forall n d p s e, (1 < n)%nat ->
  nth 0 (ring_first n d p s e) (0, 0) = s /\
  (forall k, (k < n)%nat -> apart p (nth k (ring_first n d p s e) (0, 0)) = apart p s) /\
  (nth (n - 1) (ring_first n d p s e) (0, 0) = e <-> apart p e = apart p s).
Proof. exact ring_start_ends. Qed.
Example C196_start_ends_ex : nth 0 (ring_first 7 Gmove_Model.CCW (0, 0) (2, 0) (0, 2)) (0, 0) = (2, 0).
Proof. exact (proj1 (C196_start_ends 7 Gmove_Model.CCW (0, 0) (2, 0) (0, 2) ltac:(lia))). Qed.
Print Assumptions C196_start_ends.

(* for a full circle all these points are the start *)
Theorem C196_circle_refuted : exists d p s e, s = e /\ 0 < apart p s /\ forall n k, (1 < n)%nat -> (k < n)%nat -> nth k (ring_first n d p s e) (0, 0) = s.
Proof. exact ring_circle_refuted. Qed.
Print Assumptions C196_circle_refuted.

(* the third column of the guess is zero *)
Theorem C196_flat : forall cx cy v, In v (snd (ring_columns cx cy)) -> v = 0.
Proof. exact ring_flat. Qed.
Example C196_flat_ex : forall v, In v (snd (ring_columns [1; 2] [3; 4])) -> v = 0.
Proof. exact (C196_flat [1; 2] [3; 4]). Qed.
Print Assumptions C196_flat.

(* so the height of a segment is lost *)
Theorem C196_height_refuted : exists cx cy z, z <> 0 /\ length cx = length cy /\ cx <> [] /\
  ~ In z (snd (ring_columns cx cy)).
Proof. exact ring_height_refuted. Qed.
Print Assumptions C196_height_refuted.

(* the motion time keeps x and y within the limits of x at the samples *)
Theorem C197_keeps : forall L gx gy gz T, 0 < vx L -> 0 < ax L -> 0 < jx L -> guess_time L (gx, gy, gz) = Some T ->
  0 <= T /\ forall s, s = gx \/ s = gy -> keeps 1 s (vx L) T /\ keeps 2 s (ax L) T /\ keeps 3 s (jx L) T.
Proof. exact time_keeps. Qed.
Example C197_keeps_ex : keeps 1 (line 1) 1 (105 / 100).
Proof. exact (proj1 (proj2 (C197_keeps ones (line 1) (line 1) (line 300) (105 / 100) ltac:(cbn; lra) ltac:(cbn; lra) ltac:(cbn; lra) (time_11 _)) (line 1) (or_introl eq_refl))). Qed.
Print Assumptions C197_keeps.

(* where the limits of x are zero, z is kept within those of z *)
Theorem C197_keeps_z : forall L gx gy gz T, vx L = 0 -> ax L = 0 -> jx L = 0 -> 0 < vz L -> 0 < az L -> 0 < jz L ->
  guess_time L (gx, gy, gz) = Some T -> 0 <= T /\ keeps 1 gz (vz L) T /\ keeps 2 gz (az L) T /\ keeps 3 gz (jz L) T.
Proof. exact time_keeps_z. Qed.
Example C197_keeps_z_ex : forall T, guess_time (Lim 0 0 1 0 0 1 0 0 1) (line 0, line 0, line 2) = Some T -> keeps 1 (line 2) 1 T.
Proof.
  intros T E. refine (proj1 (proj2 (C197_keeps_z (Lim 0 0 1 0 0 1 0 0 1) (line 0) (line 0) (line 2) T eq_refl eq_refl eq_refl _ _ _ E))); cbn; lra.
Qed.
Example C197_keeps_z_some : exists T, guess_time (Lim 0 0 1 0 0 1 0 0 1) (line 0, line 0, line 2) = Some T.
Proof.
  unfold guess_time, ratio. cbn [vx vy vz ax ay az jx jy jz]. destruct (Req_EM_T 0 0); [|lra]. destruct (Req_EM_T 1 0); [lra|]. eexists; reflexivity.
Qed.
Print Assumptions C197_keeps_z.

(* it is at most five percent more than any time that does so *)
Theorem C197_least : forall L gx gy gz T T', 0 < vx L -> 0 < ax L -> 0 < jx L -> guess_time L (gx, gy, gz) = Some T -> 0 <= T' ->
  (forall s, s = gx \/ s = gy -> keeps 1 s (vx L) T' /\ keeps 2 s (ax L) T' /\ keeps 3 s (jx L) T') -> T <= 105 / 100 * T'.
Proof. exact time_least. Qed.
Example C197_least_ex : 105 / 100 <= 105 / 100 * 2.
Proof.
  apply (C197_least ones (line 1) (line 1) (line 300) (105 / 100) 2); try (cbn; lra); [apply time_11|].
  intros s H. assert (E : s = line 1) by tauto. subst s. cbn [vx ax jx ones].
  split; [|split]; intros x X; apply sampled_unit in X;
    [rewrite line_1 by exact X; rewrite Rabs_R1|rewrite line_2 by exact X; rewrite Rabs_R0|rewrite line_3 by exact X; rewrite Rabs_R0]; lra.
Qed.
Print Assumptions C197_least.

(* the check accepts it when the limits of y are not below those of x *)
Theorem C197_passes : forall L gx gy gz T, 0 < vx L <= vy L -> 0 < ax L <= ay L -> 0 < jx L <= jy L ->
  guess_time L (gx, gy, gz) = Some T -> new_segment L (gx, gy, gz) = Some T.
Proof. exact guess_passes. Qed.
Example C197_passes_ex : new_segment ones (line 1, line 1, line 300) = Some (105 / 100).
Proof. exact (C197_passes ones (line 1) (line 1) (line 300) (105 / 100) ltac:(cbn; lra) ltac:(cbn; lra) ltac:(cbn; lra) (time_11 _)). Qed.
Print Assumptions C197_passes.

(* so every guess gets a time then *)
Theorem C197_total : forall L gx gy gz, 0 < vx L <= vy L -> 0 < ax L <= ay L -> 0 < jx L <= jy L ->
  exists T, new_segment L (gx, gy, gz) = Some T /\ 0 <= T /\
    forall s, s = gx \/ s = gy -> keeps 1 s (vx L) T /\ keeps 2 s (ax L) T /\ keeps 3 s (jx L) T.
Proof. exact guess_passes_total. Qed.
Example C197_total_ex : exists T, new_segment ones (line 7, line (-3), line 0) = Some T.
Proof. destruct (C197_total ones (line 7) (line (-3)) (line 0) ltac:(cbn; lra) ltac:(cbn; lra) ltac:(cbn; lra)) as (T & E & _). exists T; exact E. Qed.
Print Assumptions C197_total.

(* what the check accepts is below the limits at the samples *)
Theorem C197_checked : forall L gx gy gz T, 0 < T -> checked L (gx, gy, gz) T = Some T ->
  forall x, sampled x ->
  call (derivative gx 1) x <= vx L * T /\ call (derivative gy 1) x <= vy L * T /\
  call (derivative gx 2) x <= ax L * T ^ 2 /\ call (derivative gy 2) x <= ay L * T ^ 2 /\
  call (derivative gx 3) x <= jx L * T ^ 3 /\ call (derivative gy 3) x <= jy L * T ^ 3.
Proof. exact checked_bound. Qed.
Example C197_checked_ex : call (derivative (line 1) 1) 0 <= 1 * (105 / 100).
Proof.
  refine (proj1 (C197_checked ones (line 1) (line 1) (line 300) (105 / 100) ltac:(lra) _ 0 sampled_0)).
  pose proof C197_passes_ex as E. unfold new_segment in E. rewrite time_11 in E. exact E.
Qed.
Print Assumptions C197_checked.

(* the speed in z is not looked at *)
Theorem C197_z_refuted : exists L gx gy gz T, vx L = vy L /\ ax L = ay L /\ jx L = jy L /\ 0 < vx L /\ 0 < vz L /\
  new_segment L (gx, gy, gz) = Some T /\ 0 < T /\ ~ keeps 1 gz (vz L) T.
Proof. exact guess_z_refuted. Qed.
Print Assumptions C197_z_refuted.

(* with a lower limit in y the check raises *)
Theorem C197_y_refuted : exists L gx gy gz T, 0 < vx L /\ 0 < vy L /\ 0 < ax L /\ 0 < ay L /\ 0 < jx L /\ 0 < jy L /\
  guess_time L (gx, gy, gz) = Some T /\ new_segment L (gx, gy, gz) = None.
Proof. exact guess_y_refuted. Qed.
Print Assumptions C197_y_refuted.

(* the check does not see negative values *)
Theorem C197_sign_refuted : exists L gx gy gz T, 0 < T /\ checked L (gx, gy, gz) T = Some T /\ 0 < vx L /\ ~ keeps 1 gx (vx L) T.
Proof. exact check_sign_refuted. Qed.
Print Assumptions C197_sign_refuted.

(* the slack bounds the distance of each component to its condition up to the error of the operators *)
Theorem C198_slack_close : forall tol X free cond goal n k tau, 0 <= tol -> 0 <= tau <= 1 -> (k < n)%nat ->
  (forall i, (i < n)%nat -> on_unit (X i) /\ on_unit (X (10 + i)%nat)) -> solved tol X (free_cons free cond goal n) ->
  Rabs (call (X k) tau - condition free cond goal k) <=
    call (X (10 + k)%nat) tau + drift_max tol X (map cexpr (free_cons free cond goal n)).
Proof. exact free_slack_close. Qed.
Example C198_slack_close_ex : Rabs (call (X_free 0) (1/2) - condition default_free [5; 2] [] 0) <= call (X_free 10) (1/2) + drift_max 0 X_free (map cexpr (free_cons default_free [5; 2] [] 2)).
Proof. exact (C198_slack_close 0 X_free default_free [5; 2] [] 2 0 (1/2) (Rle_refl 0) ltac:(lra) ltac:(lia) (fun i _ => conj (free_unit i) (free_unit (10 + i))) free_solved_ex). Qed.
Print Assumptions C198_slack_close.

(* exactly so with exact operators *)
Theorem C198_slack : forall X free cond goal n k tau, 0 <= tau <= 1 -> (k < n)%nat ->
  (forall i, (i < n)%nat -> on_unit (X i) /\ on_unit (X (10 + i)%nat)) -> solved 0 X (free_cons free cond goal n) ->
  Rabs (call (X k) tau - condition free cond goal k) <= call (X (10 + k)%nat) tau.
Proof. exact free_slack. Qed.
Example C198_slack_ex : Rabs (call (X_free 0) (1/2) - condition default_free [5; 2] [] 0) <= call (X_free 10) (1/2).
Proof. exact (C198_slack X_free default_free [5; 2] [] 2 0 (1/2) ltac:(lra) ltac:(lia) (fun i _ => conj (free_unit i) (free_unit (10 + i))) free_solved_ex). Qed.
Print Assumptions C198_slack.

(* the last component ends at its condition *)
Theorem C198_stop : forall tol X free cond goal n m, (0 < m)%nat -> stops tol X (free_end free cond goal n m) ->
  call (X (n - 1)%nat) 1 = condition free cond goal (n - 1).
Proof. exact free_stop. Qed.
Example C198_stop_ex : call (X_free 1) 1 = condition default_free [5; 2] [] 1.
Proof. exact (C198_stop 0 X_free default_free [5; 2] [] 2 4 ltac:(lia) free_stops_ex). Qed.
Print Assumptions C198_stop.

(* by default the first two components are free, whatever their number *)
Theorem C198_default : forall cond goal k, condition default_free cond goal k = if (k <? 2)%nat then nth k cond 0 else nth k goal 0.
Proof. exact default_condition. Qed.
Example C198_default_ex : condition default_free [5; 2] [1; 2; 3] 2 = 3.
Proof. exact (C198_default [5; 2] [1; 2; 3] 2). Qed.
Print Assumptions C198_default.

(* a component that is not free has the goal as condition *)
Theorem C198_goal : forall free cond goal k, ~ In k free -> condition free cond goal k = nth k goal 0.
Proof. exact free_condition. Qed.
Example C198_goal_ex : condition [1%nat] [5] [1; 2; 3] 0 = 1.
Proof. exact (C198_goal [1%nat] [5] [1; 2; 3] 0 ltac:(cbn; lia)). Qed.
Print Assumptions C198_goal.

(* every free component has a variable of its own *)
Theorem C198_own : forall free n, exists f, (forall cond goal k, In k free -> condition free cond goal k = nth (f k) cond 0) /\
  (forall j k, In j free -> In k free -> f j = f k -> j = k) /\
  (forall k, (k < n)%nat -> In k free -> (f k < length (nodup Nat.eq_dec free))%nat).
Proof. exact free_own. Qed.
Example C198_own_ex : exists f, (forall cond goal k, In k [2; 0]%nat -> condition [2; 0]%nat cond goal k = nth (f k) cond 0) /\ f 0%nat <> f 2%nat.
Proof.
  destruct (C198_own [2; 0]%nat 3) as (f & A & B & _). exists f. split; [exact A|]. intros E.
  specialize (B 0%nat 2%nat ltac:(cbn; tauto) ltac:(cbn; tauto) E). discriminate.
Qed.
Print Assumptions C198_own.

(* the vehicle need not end at rest, and the other components need not end at their conditions *)
Theorem C198_rest_refuted : exists X cond, (forall i, on_unit (X i)) /\ solved 0 X (free_cons default_free cond [] 2) /\
  stops 0 X (free_end default_free cond [] 2 4) /\
  call (derivative (X 0%nat) 1) 1 <> 0 /\ call (X 0%nat) 1 <> condition default_free cond [] 0.
Proof. exact free_rest_refuted. Qed.
Print Assumptions C198_rest_refuted.
