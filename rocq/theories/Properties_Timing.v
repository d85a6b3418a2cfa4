Require Import QArith Qround Qabs ZArith List Bool String Lia Lqa.
Require Import Verif.Timing_Model Verif.Timing_Spec Verif.Timing_Proofs Verif.Timing_Proofs2.
Import ListNotations.
Open Scope Q_scope.

(* whatever the updates were, the recorded times are 0, sample_time, 2 sample_time, ... *)
Theorem C26_grid : forall ts upd us s, timing ts upd us reset_timing = Some s -> on_grid ts (times s).
Proof.  intros ts upd us s H. exact (proj1 (timing_grid _ _ _ _ _ (reset_grid ts) H)). Qed.
Example C26_grid_ex : exists s, timing (1 # 10) (3 # 10) [None; Some (1 # 10); None] reset_timing = Some s /\
  List.length (times s) = 8%nat /\ now s == 7 # 10 /\ nth 7 (times s) 0 == 7 # 10.
Proof. eexists. vm_compute. repeat split; reflexivity. Qed.
Print Assumptions C26_grid.

(* updates of k samples add k entries *)
Theorem C26_count : forall ts upd ks us s, 0 < ts ->
  Forall2 (fun k u => chosen upd u == zq (Z.of_nat k) * ts) ks us ->
  timing ts upd us reset_timing = Some s -> List.length (times s) = (1 + list_sum ks)%nat.
Proof. exact timing_count. Qed.
Example C26_count_ex : Forall2 (fun k u => chosen (3 # 10) u == zq (Z.of_nat k) * (1 # 10)) [3; 1; 3]%nat [None; Some (1 # 10); None].
Proof. repeat constructor. Qed.
Print Assumptions C26_count.

(* with updates of a whole number of samples current_time is the last entry *)
Theorem C26_clock : forall ts upd us s, 0 < ts -> Forall (fun u => whole ts (chosen upd u)) us ->
  timing ts upd us reset_timing = Some s -> now s == last (times s) 0.
Proof.  intros ts upd us s P F. apply (timing_clock ts upd us P F reset_timing s (reset_grid ts)). reflexivity. Qed.
Example C26_clock_ex : Forall (fun u => whole (1 # 10) (chosen (3 # 10) u)) [None; Some (1 # 10); Some 0].
Proof. repeat constructor; [exists 3%Z | exists 1%Z | exists 3%Z]; split; try reflexivity; discriminate. Qed.
Print Assumptions C26_clock.

(* in general the two differ by at most about one sample per update *)
Theorem C26_drift : forall ts upd us s, 0 < ts -> Forall (fun u => 0 <= chosen upd u) us ->
  timing ts upd us reset_timing = Some s ->
  Qabs (now s - last (times s) 0) <= zq (Z.of_nat (List.length us)) * (ts * (1 + (1 # 2000000))).
Proof.  intros ts upd us s P F H. pose proof (timing_drift ts upd us P F reset_timing s 0 (reset_grid ts) ltac:(discriminate) H). lra. Qed.
Example C26_drift_ex : exists s, timing (1 # 100) (15 # 1000) [None; None; None] reset_timing = Some s /\
  now s == 45 # 1000 /\ last (times s) 0 == 3 # 100.
Proof. eexists. vm_compute. repeat split; reflexivity. Qed.
Print Assumptions C26_drift.

(* and they really drift apart when the update time is not a multiple of the sample time *)
Theorem C26_clock_refuted : exists ts upd us s, 0 < ts /\ 0 < upd /\ timing ts upd us reset_timing = Some s /\
  ~ now s == last (times s) 0.
Proof.  exists (1 # 100), (15 # 1000), [None]. eexists. split; [reflexivity|]. split; [reflexivity|]. split; [reflexivity|]. vm_compute. discriminate. Qed.
Print Assumptions C26_clock_refuted.

(* no exception for update times that are not negative *)
Theorem C26_total : forall ts upd us, 0 < ts -> Forall (fun u => 0 <= chosen upd u) us ->
  exists s, timing ts upd us reset_timing = Some s.
Proof.  intros ts upd us P F. exact (timing_total ts upd us P F reset_timing). Qed.
Print Assumptions C26_total.

(* run: one entry per vehicle sample (1 + k*N) while it runs, one less at the stop,
   which is the number of stored trajectories *)
Theorem C26_run : forall ts upd N m k, 0 < ts -> ts < 1 -> (0 <= N)%Z -> upd == zq N * ts -> (2 <= m)%Z ->
  exists s1 s2, plain_runs ts upd k reset_timing = Some s1 /\
    run_iter ts upd true (zq m * ts) s1 = Some s2 /\
    Z.of_nat (List.length (times s1)) = (1 + Z.of_nat k * N)%Z /\
    now s1 == last (times s1) 0 /\
    Z.of_nat (List.length (times s2)) = (1 + Z.of_nat k * N + m - 1)%Z /\
    now s2 == last (times s2) 0.
Proof. exact run_counts. Qed.
Example C26_run_ex : exists s1 s2, plain_runs (1 # 10) (5 # 10) 2 reset_timing = Some s1 /\
  run_iter (1 # 10) (5 # 10) true (3 # 10) s1 = Some s2 /\ List.length (times s2) = 13%nat.
Proof. eexists. eexists. split; [reflexivity|]. split; reflexivity. Qed.
Print Assumptions C26_run.

(* stopping after a single sample: the corrected time is 0, which selects the full
   update time, so entries without a vehicle sample appear *)
Theorem C26_last_sample_refuted : exists ts upd s, 0 < ts < 1 /\ run_iter ts upd true ts reset_timing = Some s /\
  now s == upd /\ ts < upd /\ (List.length (times s) > 2)%nat.
Proof.  exists (1 # 10), (5 # 10). eexists. split; [split; reflexivity|]. split; [reflexivity|]. split; [reflexivity|]. split; [reflexivity|]. simpl; lia. Qed.
Print Assumptions C26_last_sample_refuted.

(* for sample times of a second or more a stop is not seen at all (1 > sample_time) *)
Theorem C26_coarse_stop_refuted : exists ts upd d, 1 <= ts /\ run_arg ts upd true d = None /\ run_arg (ts / 2) upd true d <> None.
Proof.  exists 1, 5, 3. split; [discriminate|]. split; [reflexivity|]. vm_compute. discriminate. Qed.
Print Assumptions C26_coarse_stop_refuted.

(* index k exactly for the times from sample k up to half-way to the next *)
Theorem C27_exact : forall ts q l k, 0 < ts -> micro ts -> on_grid ts l ->
  (time2index ts q l = Some k <->
   (k < List.length l)%nat /\ zq (Z.of_nat k) * ts <= q <= zq (Z.of_nat k) * ts + ts / 2).
Proof. exact time2index_iff. Qed.
Example C27_ex : time2index (1 # 100) (124 # 10000) [0; 1 # 100; 2 # 100] = Some 1%nat /\
  time2index (1 # 100) (2 # 100) [0; 1 # 100; 2 # 100] = Some 2%nat.
Proof. split; reflexivity. Qed.
Example C27_ex_grid : micro (1 # 100) /\ on_grid (1 # 100) [0; 1 # 100; 2 # 100].
Proof.
  split; [exists 10000%Z; reflexivity|]. split; [discriminate|].
  intros k H. simpl in H. destruct k as [|[|[|k]]]; try reflexivity; lia.
Qed.
Print Assumptions C27_exact.

(* a time inside the recording, nearer to the next sample, gets None *)
Theorem C27_nearest_refuted : exists ts q l, 0 < ts /\ on_grid ts l /\ 0 <= q <= last l 0 /\ time2index ts q l = None.
Proof.  exists (1 # 100), (17 # 1000), [0; 1 # 100; 2 # 100]. split; [reflexivity|]. split; [split; [discriminate|]; intros k H; simpl in H; destruct k as [|[|[|k]]]; try reflexivity; lia|]. split; [split; discriminate|]. reflexivity. Qed.
Print Assumptions C27_nearest_refuted.

(* true division: only the part below a millisecond is lost *)
Theorem C28_python3 : forall h ki, 0 <= h -> (0 < ki)%Z ->
  knot_time3 h ki * zq ki <= h /\ h < knot_time3 h ki * zq ki + (1 # 1000) /\
  (knot_time3 h ki * zq ki == h <-> exists z, h == zq z / 1000).
Proof.  intros h ki H K. destruct (knot3_le h ki H K). split; [assumption|]. split; [assumption|]. exact (knot3_eq h ki H K). Qed.
Example C28_python3_ex : knot_time3 10 11 * zq 11 == 10.
Proof. reflexivity. Qed.
Print Assumptions C28_python3.

(* floor division (Python 2): equal exactly for multiples of knot_intervals milliseconds *)
Theorem C28_python2 : forall h ki, 0 <= h -> (0 < ki)%Z ->
  knot_time2 h ki * zq ki <= h /\ h < knot_time2 h ki * zq ki + zq ki / 1000 /\
  (knot_time2 h ki * zq ki == h <-> exists z, h == zq (z * ki) / 1000).
Proof.  intros h ki H K. destruct (knot2_le h ki H K). split; [assumption|]. split; [assumption|]. exact (knot2_eq h ki H K). Qed.
Example C28_python2_ex : knot_time2 10 11 == 909 # 1000 /\ ~ knot_time2 10 11 * zq 11 == 10 /\ knot_time2 10 8 * zq 8 == 10.
Proof. split; [reflexivity|]. split; [discriminate|reflexivity]. Qed.
Print Assumptions C28_python2.

Theorem C28_positive : forall h ki, (0 < ki)%Z ->
  ((1 # 1000) <= h -> 0 < knot_time3 h ki) /\ (zq ki / 1000 <= h -> 0 < knot_time2 h ki).
Proof.  intros h ki K. split; [exact (knot_pos3 h ki K)|exact (knot_pos2 h ki K)]. Qed.
Print Assumptions C28_positive.

(* the parameter t is in [0, knot_time) and differs from the time by whole knot intervals *)
Theorem C28_parameter : forall kt t, 0 < kt -> 0 <= rel_time kt t None < kt /\
  exists k : Z, rel_time kt t None == round6 t - kt * zq k.
Proof.  intros kt t P. split; [exact (rel_range kt t P)|]. apply pmod_congr. Qed.
Example C28_parameter_ex : rel_time (909 # 1000) 2 None == 182 # 1000 /\ rel_time (9 # 10) (-1 # 10) None == 8 # 10.
Proof. split; reflexivity. Qed.
Print Assumptions C28_parameter.

(* one shift or none, and one exactly when the interval number grew *)
Theorem C29_once : forall kt t s,
  (snd (init_step kt t s) = snd s \/ snd (init_step kt t s) = S (snd s)) /\
  (snd (init_step kt t s) = S (snd s) <-> (interval kt (fst s) < interval kt t)%Z).
Proof.  intros kt t s. split; [apply init_step_once|apply init_step_iff]. Qed.
Print Assumptions C29_once.

(* updates no longer than a knot interval: one shift per interval passed *)
Theorem C29_exact : forall kt l, 0 < kt -> forall t0 n, 0 <= t0 -> ordered t0 l -> steps_within kt t0 l ->
  Z.of_nat (snd (init_steps kt l (t0, n))) = (Z.of_nat n + (interval kt (last l t0) - interval kt t0))%Z.
Proof. exact init_steps_exact. Qed.
Example C29_exact_ex : ordered 0 [4 # 10; 8 # 10; 12 # 10; 16 # 10; 2] /\ steps_within (1 # 2) 0 [4 # 10; 8 # 10; 12 # 10; 16 # 10; 2] /\
  snd (init_steps (1 # 2) [4 # 10; 8 # 10; 12 # 10; 16 # 10; 2] (0, 0%nat)) = 4%nat.
Proof. split; [|split]; [repeat split; discriminate|repeat split; discriminate|reflexivity]. Qed.
Print Assumptions C29_exact.

(* for any update lengths there are never too many shifts *)
Theorem C29_never_more : forall kt l, 0 < kt -> forall t0 n, ordered t0 l ->
  (Z.of_nat (snd (init_steps kt l (t0, n))) <= Z.of_nat n + (interval kt (last l t0) - interval kt t0))%Z.
Proof. exact init_steps_at_most. Qed.
Print Assumptions C29_never_more.

(* the shifts and the parameter t together give the time, on a microsecond sample
   grid with at most a million samples per interval *)
Theorem C29_consistent : forall ts m l, 0 < ts -> micro ts -> (0 < m <= 1000000)%Z ->
  ordered 0 l -> steps_within (zq m * ts) 0 l -> Forall (whole ts) l ->
  let t := last l 0 in
  zq (Z.of_nat (snd (init_steps (zq m * ts) l (0, 0%nat)))) * (zq m * ts)
    + rel_time (zq m * ts) t None == t.
Proof. exact shift_consistent. Qed.
Example C29_consistent_ex : let l := [4 # 10; 8 # 10; 12 # 10] in
  zq (Z.of_nat (snd (init_steps (zq 5 * (1 # 10)) l (0, 0%nat)))) * (zq 5 * (1 # 10))
    + rel_time (zq 5 * (1 # 10)) (12 # 10) None == 12 # 10 /\ micro (1 # 10) /\ Forall (whole (1 # 10)) l.
Proof.
  cbv zeta. split; [reflexivity|]. split; [exists 100000%Z; reflexivity|].
  repeat constructor; [exists 4%Z | exists 8%Z | exists 12%Z]; split; try reflexivity; discriminate.
Qed.
Print Assumptions C29_consistent.

(* an update of two intervals shifts only once *)
Theorem C29_lost_refuted : exists kt l, 0 < kt /\ ordered 0 l /\
  (Z.of_nat (snd (init_steps kt l (0%Q, 0%nat))) < interval kt (last l 0%Q))%Z.
Proof.  exists 1, [2; 4]. split; [reflexivity|]. split; [repeat split; discriminate|reflexivity]. Qed.
Print Assumptions C29_lost_refuted.

(* just before a knot the two roundings disagree: the spline is shifted while the
   parameter t still counts from the old knot *)
Theorem C29_rounding_refuted : exists kt t, 0 < kt /\ 0 <= t <= kt /\
  ~ zq (Z.of_nat (snd (init_step kt t (0, 0%nat)))) * kt + rel_time kt t None == t.
Proof.  exists 10, (9999996 # 1000000). split; [reflexivity|]. split; [split; discriminate|]. vm_compute. discriminate. Qed.
Print Assumptions C29_rounding_refuted.

(* all options (ideal or integrated, disturbance, first-order delay), any history *)
Theorem C31_aligned : forall (C : Type) ts keys ns (l : list (sim_opts C * signals C * Q)), 0 < ts ->
  In "input"%string keys -> l <> [] -> Forall2 (regular ts keys) ns l ->
  exists sig, sim_steps ts l None = Some sig /\ map fst sig = keys /\ aligned (1 + list_sum ns) sig.
Proof. exact @run_aligned. Qed.
Definition demo_opts : sim_opts Z := mkOpts false (Some (fun _ c => c + 1)%Z) (Some (fun a _ _ => a))
  (fun a u _ => (a + hd 0 u)%Z) (fun c => c) 0%Z.
Definition demo_traj : signals Z :=
  [("state", [0; 1; 2; 3]%Z); ("input", [1; 1; 1; 1]%Z); ("pose", [0; 1; 2; 3]%Z); ("time", [0; 1; 2; 3]%Z)]%string.
Example C31_ex : Forall2 (regular (1 # 10) ["state"; "input"; "pose"; "time"]%string) [2; 3]%nat
  [(demo_opts, demo_traj, 2 # 10); (demo_opts, demo_traj, 3 # 10)].
Proof.
  constructor; [|constructor; [|constructor]]; (split; [reflexivity|]; split; [reflexivity|]; exists 4%nat; split; [lia|repeat constructor]).
Qed.
Example C31_ex_run : option_map (map (fun kv => List.length (snd kv)))
  (sim_steps (1 # 10) [(demo_opts, demo_traj, 2 # 10); (demo_opts, demo_traj, 3 # 10)] None) = Some [6; 6; 6; 6]%nat.
Proof. reflexivity. Qed.
Print Assumptions C31_aligned.

(* the appended columns are the planned ones, from the second on *)
Theorem C31_columns : forall (C : Type) o (traj sig : signals C) t ts n key i d, 0 < ts ->
  t == zq (Z.of_nat n) * ts -> In key (map fst sig) ->
  (ideal_update o = true \/ ~ In key ["input"; "state"; "pose"]%string) -> (i < n)%nat ->
  nth (List.length (lookup key sig) + i) (lookup key (simulate o traj t ts (Some sig))) d
    = nth (S i) (lookup key traj) d.
Proof. exact @simulate_column. Qed.
Example C31_columns_ex : lookup "time" (simulate demo_opts demo_traj (2 # 10) (1 # 10) (Some demo_traj)) = [0; 1; 2; 3; 1; 2]%Z.
Proof. reflexivity. Qed.
Print Assumptions C31_columns.

(* replanning from the time reached, the logged 'time' signal is the same grid as
   the simulator's time *)
Theorem C31_time_log : forall ts keys ns (l : list (sim_opts Q * signals Q * Q)), 0 < ts ->
  In "input"%string keys -> In "time"%string keys -> l <> [] ->
  Forall2 (regular ts keys) ns l ->
  replanned ts 0 ns (map (fun p => (tt, fun k => lookup k (snd (fst p)))) l) ->
  exists sig, sim_steps ts l None = Some sig /\ on_grid ts (lookup "time" sig).
Proof. exact log_times0. Qed.
Definition demo_plan (a : Q) : signals Q :=
  [("input", [1; 1; 1]); ("time", [a; a + (1 # 10); a + (2 # 10)])]%string.
Example C31_time_log_ex : replanned (1 # 10) 0 [2; 1]%nat
  (map (fun p : unit * signals Q * Q => (tt, fun k => lookup k (snd (fst p)))) [(tt, demo_plan 0, 2 # 10); (tt, demo_plan (2 # 10), 1 # 10)]).
Proof.
  cbn [map replanned fst snd]. split; [|split; [|exact I]].
  - intros i H. destruct i as [|[|[|i]]]; try reflexivity; lia.
  - intros i H. destruct i as [|[|i]]; try reflexivity; lia.
Qed.
Print Assumptions C31_time_log.

(* and one stored trajectory per simulated sample *)
Theorem C31_stored : forall (C : Type) ts keys ns (l : list (sim_opts C * signals C * Q)), 0 < ts ->
  Forall2 (regular ts keys) ns l ->
  fold_left (fun c (p : sim_opts C * signals C * Q) => stored c (snd p) ts) l 0%nat = list_sum ns.
Proof. exact @run_stored. Qed.
Print Assumptions C31_stored.

(* a time just below three samples: the integrated state and pose are one column short *)
Theorem C31_misaligned_refuted : exists ts t (o : sim_opts Z) traj, 0 < ts /\ 0 <= t /\ aligned 4 traj /\
  map (fun kv => List.length (snd kv)) (simulate o traj t ts None) = [3; 4; 3; 4]%nat.
Proof.  exists (1 # 10), (29999999 # 100000000), (mkOpts false None None (fun a _ _ => a) (fun c => c) 0%Z), demo_traj. split; [reflexivity|]. split; [discriminate|]. split; [repeat constructor|reflexivity]. Qed.
Print Assumptions C31_misaligned_refuted.

(* fixed-time problems store at least as many columns as they simulate *)
Theorem C31_enough_columns : forall h rel ts t, 0 < ts ->
  (n_samp (sim_time h rel t) ts < store_count h rel ts)%Z /\
  List.length (time_axis h rel ts) = Z.to_nat (store_count h rel ts).
Proof.  intros h rel ts t P. split; [apply axis_enough; exact P|apply axis_length]. Qed.
Example C31_enough_ex : store_count 10 (3 # 10) (1 # 100) = 971%Z /\ n_samp (sim_time 10 (3 # 10) 20) (1 # 100) = 970%Z.
Proof. split; reflexivity. Qed.
Print Assumptions C31_enough_columns.

(* the stored time axis ends within one sample of the horizon *)
Theorem C31_axis_end : forall h rel ts, 0 < ts -> rel <= h ->
  last (time_axis h rel ts) 0 <= h + ts * (1 # 2000000) /\ h - ts * (1 + (1 # 2000000)) <= last (time_axis h rel ts) 0.
Proof. exact axis_last. Qed.
Example C31_axis_ex : last (time_axis 1 (3 # 10) (2 # 10)) 0 == 9 # 10.
Proof. reflexivity. Qed.
Print Assumptions C31_axis_end.

(* k samples after the previous call the predicted column is k, the column planned for
   the current time, unless the plan is over *)
Theorem C70_column : forall ts upd prev cur rem n k M, 0 < ts ->
  upd == zq n * ts -> cur - prev == zq k * ts -> rem == zq M * ts ->
  predict_column ts upd prev cur rem false = (if Z.ltb M k then n else k).
Proof. exact delay_column. Qed.
Example C70_ex : predict_column (1 # 100) (1 # 10) 2 (213 # 100) 9 false = 13%Z /\
  predict_column (1 # 100) (1 # 10) 2 (213 # 100) (11 # 100) false = 10%Z.
Proof. split; reflexivity. Qed.
Print Assumptions C70_column.

(* and it always exists in the trajectory of M+1 columns *)
Theorem C70_in_range : forall ts upd prev cur rem n k M, 0 < ts ->
  upd == zq n * ts -> cur - prev == zq k * ts -> rem == zq M * ts ->
  (0 <= n <= M)%Z -> (0 <= k)%Z ->
  (0 <= predict_column ts upd prev cur rem false <= M)%Z.
Proof. exact column_in_range. Qed.
Print Assumptions C70_in_range.

(* off the sample grid the delay is truncated: 1.9 samples late counts as 1 *)
Theorem C70_truncated_refuted : exists ts upd prev cur rem, 0 < ts /\ 0 <= upd /\ cur == prev + upd + (19 # 10) * ts /\
  predict_column ts upd prev cur rem false = (n_samp upd ts + 1)%Z /\ n_samp rem ts = 900%Z.
Proof.  exists (1 # 100), (1 # 10), 2, (2119 # 1000), 9. split; [reflexivity|]. split; [discriminate|]. split; [reflexivity|]. split; reflexivity. Qed.
Print Assumptions C70_truncated_refuted.
