(** What a simulation keeps, and fleets (C204-C206). *)
From Coq Require Import QArith ZArith List Bool Arith Lia.
From Verif Require Import Memo_Model Memo_Spec Memo_Proofs.
From Verif Require Timing_Model.
Import ListNotations.
Local Open Scope nat_scope.


(* after simulations of whole numbers of samples the signals are the first column and the executed samples, for every state, and the stored plans are those of the samples *)
Theorem C204_session : forall ideal ts calls ks p n t, (0 < ts)%Q -> whole_calls ts ((p, n, t) :: calls) ks ->
  let m := session true ideal ts ((p, n, t) :: calls) no_memory in
  m_time m = Some ((p, 0) :: executed ks) /\ m_state m = m_time m /\ m_store m = map fst (executed ks).
Proof. exact session_whole. Qed.
Example C204_session_ex : m_time (session true false (1#2) [(7, 9, 1%Q); (8, 9, (3#2)%Q)] no_memory) = Some [(7, 0); (7, 1); (7, 2); (8, 1); (8, 2); (8, 3)] /\
  m_store (session true false (1#2) [(7, 9, 1%Q); (8, 9, (3#2)%Q)] no_memory) = [7; 7; 8; 8; 8].
Proof.
  assert (W : whole_calls (1#2) [(7, 9, 1%Q); (8, 9, (3#2)%Q)] [(7, 2); (8, 3)])
    by (apply Whole_cons; [reflexivity|lia|]; apply Whole_cons; [reflexivity|lia|]; apply Whole_nil).
  destruct (C204_session false (1#2) [(8, 9, (3#2)%Q)] _ 7 9 1%Q ltac:(reflexivity) W) as (A & _ & B). split; [exact A|exact B].
Qed.
Print Assumptions C204_session.

(* entry i of the storage is the plan of column i + 1 of the signals *)
Theorem C204_index : forall ideal ts calls ks p n t i, (0 < ts)%Q -> whole_calls ts ((p, n, t) :: calls) ks ->
  let m := session true ideal ts ((p, n, t) :: calls) no_memory in
  exists l, m_time m = Some l /\ length l = S (length (m_store m)) /\
    (i < length (m_store m) -> nth i (m_store m) 0 = fst (nth (S i) l (0, 0))).
Proof. exact store_index. Qed.
Example C204_index_ex : nth 2 (m_store (session true true (1#2) [(7, 9, 1%Q); (8, 9, (3#2)%Q)] no_memory)) 0 = 8.
Proof.
  assert (W : whole_calls (1#2) [(7, 9, 1%Q); (8, 9, (3#2)%Q)] [(7, 2); (8, 3)])
    by (apply Whole_cons; [reflexivity|lia|]; apply Whole_cons; [reflexivity|lia|]; apply Whole_nil).
  destruct (C204_index true (1#2) [(8, 9, (3#2)%Q)] _ 7 9 1%Q 2 ltac:(reflexivity) W) as (l & A & _ & B).
  injection A as <-. rewrite B by (vm_compute; lia). reflexivity.
Qed.
Print Assumptions C204_index.

(* how many columns and stored plans any simulated time gives *)
Theorem C204_lengths : forall ideal ts t p n m, let k := Z.to_nat (Timing_Model.n_samp t ts) in let r := Z.to_nat (Timing_Model.pint (t / ts)) in
  k < n ->
  let m' := simulate true ideal ts t p n m in
  exists lt ls, m_time m' = Some lt /\ m_state m' = Some ls /\
    length lt = length (begun (m_time m) p n) + k /\
    length ls = length (begun (m_state m) p n) + (if ideal then k else Nat.min k r) /\
    length (m_store m') = length (m_store m) + r.
Proof. exact lengths. Qed.
Example C204_lengths_ex : exists ls, m_state (simulate true false (1#2) (6#5) 7 9 no_memory) = Some ls /\ length ls = 3.
Proof.
  destruct (C204_lengths false (1#2) (6#5) 7 9 no_memory ltac:(vm_compute; lia)) as (lt & ls & _ & A & _ & B & _).
  exists ls. split; [exact A|]. rewrite B. reflexivity.
Qed.
Print Assumptions C204_lengths.

(* they differ by one if the simulated time is less than half a millionth of a sample short of a whole number of samples, and agree if it is more *)
Theorem C204_counts : forall ts t, (0 < ts)%Q -> (0 <= t)%Q ->
  let k := Timing_Model.n_samp t ts in let r := Timing_Model.pint (t / ts) in
  (k = r \/ k = r + 1)%Z /\
  ((t / ts < inject_Z r + 1 - (1 # 2000000))%Q -> k = r) /\
  ((inject_Z r + 1 - (1 # 2000000) < t / ts)%Q -> k = (r + 1)%Z).
Proof. exact counts. Qed.
Example C204_counts_ex : Timing_Model.n_samp (29999999#10000000) 1 = 3%Z /\ Timing_Model.pint ((29999999#10000000) / 1) = 2%Z.
Proof.
  destruct (C204_counts 1 (29999999#10000000) ltac:(reflexivity) ltac:(discriminate)) as (_ & _ & H). split; [|reflexivity].
  rewrite H by reflexivity. reflexivity.
Qed.
Print Assumptions C204_counts.

(* a vehicle that is not simulated keeps its signals, while plans are stored *)
Theorem C204_idle : forall ideal ts t p n m, let m' := simulate false ideal ts t p n m in
  m_time m' = m_time m /\ m_state m' = m_state m /\ m_store m' = m_store m ++ repeat p (Z.to_nat (Timing_Model.pint (t / ts))).
Proof. exact not_simulated. Qed.
Example C204_idle_ex : m_store (simulate false true (1#2) 1 7 9 no_memory) = [7; 7] /\ m_time (simulate false true (1#2) 1 7 9 no_memory) = None.
Proof. destruct (C204_idle true (1#2) 1 7 9 no_memory) as (A & _ & B). split; [exact B|exact A]. Qed.
Print Assumptions C204_idle.

(* with the doubles 0.3 and 0.1 there are more times than states and stored plans *)
Theorem C204_doubles_refuted : exists p n lt ls, let m := simulate true false one_tenth three_tenths p n no_memory in
  m_time m = Some lt /\ m_state m = Some ls /\ length lt = 4 /\ length ls = 3 /\ length (m_store m) = 2.
Proof. exact doubles_refuted. Qed.
Print Assumptions C204_doubles_refuted.

(* vehicle i of a fleet gets value i; vehicles without a value are not changed, further values are not used *)
Theorem C205_pass_on : forall {X V} (f : X -> V -> V) xs vs,
  length (pass_on f xs vs) = length vs /\
  forall i v, nth_error vs i = Some v ->
    nth_error (pass_on f xs vs) i = Some (match nth_error xs i with Some x => f x v | None => v end).
Proof. exact @pass_on_spec. Qed.
Example C205_pass_on_ex : nth_error (pass_on Nat.add [10; 20] [1; 2; 3]) 1 = Some 22.
Proof. exact (proj2 (C205_pass_on Nat.add [10; 20] [1; 2; 3]) 1 2 eq_refl). Qed.
Print Assumptions C205_pass_on.

(* and likewise for initial states with inputs *)
Theorem C205_initial : forall {S I V} (f : S -> option I -> V -> V) states inputs vs i v s,
  nth_error vs i = Some v -> nth_error states i = Some s ->
  (inputs = None -> nth_error (set_initial f states inputs vs) i = Some (f s None v)) /\
  (forall ins u, inputs = Some ins -> nth_error ins i = Some u -> nth_error (set_initial f states inputs vs) i = Some (f s u v)) /\
  (forall ins, inputs = Some ins -> nth_error ins i = None -> nth_error (set_initial f states inputs vs) i = Some v).
Proof. exact @set_initial_spec. Qed.
Example C205_initial_ex : nth_error (set_initial (fun s (u : option nat) (v : nat) => match u with Some x => s + x | None => s end) [10; 20] None [1; 2]) 1 = Some 20.
Proof. exact (proj1 (C205_initial (fun s (u : option nat) (v : nat) => match u with Some x => s + x | None => s end) [10; 20] None [1; 2] 1 2 20 eq_refl eq_refl) eq_refl). Qed.
Print Assumptions C205_initial.

(* too few conditions are not noticed *)
Theorem C205_missing_refuted : exists (vs : list (option nat)) xs, length xs < length vs /\ Forall (fun v => v = None) vs /\
  In None (pass_on (fun x _ => Some x) xs vs).
Proof. exact conditions_refuted. Qed.
Print Assumptions C205_missing_refuted.

(* the vehicles of a problem are those of its fleet, and all that were given unless several fleets were *)
Theorem C206_vehicles : forall a f vs, get_fleet_vehicles a = Some (f, vs) ->
  f_vehicles f = vs /\ ((forall g r, a = AList (IFleet g :: r) -> r = []) -> vs = all_given a).
Proof. exact fleet_vehicles. Qed.
Example C206_vehicles_ex : forall f vs, get_fleet_vehicles (AList [IVehicle 3; IVehicle 4]) = Some (f, vs) -> vs = [3; 4].
Proof. intros f vs H. apply (proj2 (C206_vehicles _ f vs H)). intros g r E. discriminate. Qed.
Print Assumptions C206_vehicles.

(* of several fleets only the first one is used *)
Theorem C206_fleets_refuted : exists a f vs, get_fleet_vehicles a = Some (f, vs) /\ exists v, In v (all_given a) /\ ~ In v vs.
Proof. exact fleets_refuted. Qed.
Print Assumptions C206_fleets_refuted.
