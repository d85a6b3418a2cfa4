(** The statements about machining runs, from the start of a run on. *)
From Coq Require Import Reals QArith Qreals ZArith Lra Lia List Arith Bool.
From Verif Require Import Spline_Model Spline_Spec Splop_Spec Vehicle_Model Multi_Model Multi_Spec Multi_Proofs
  Concat_Model Concat_Spec Concat_Proofs4 Loop_Model Mill_Model Mill_Spec Mill_Proofs Mill_Proofs2 Mill_Proofs3.
From Verif Require Timing_Model Gcode_Model.
Import ListNotations.
Local Open Scope R_scope.

Theorem motion_smooth : forall g n s guess b0 as_ b i, bench0 g n s guess = Some b0 -> Forall (fit g) as_ ->
  Forall (fun a => good a = true) as_ -> all_begin g b0 as_ -> mill_passes g as_ b0 = Some b -> (i < 3)%nat ->
  let x := travelled (chain i as_) in
  forall t, 0 < t < Q2R (total_of (time_log b)) ->
  derivable_pt_lim (x 0%nat) t (x 1%nat t) /\ derivable_pt_lim (x 1%nat) t (x 2%nat t) /\ continuity_pt (x 2%nat) t.
Proof.
  intros g n s guess b0 as_ b i E0 F G B E Hi x t Ht.
  destruct (bench0_follows g n s guess b0 E0) as (F0 & L0 & T0 & C0 & N0 & _).
  destruct (mill_times g s b0 as_ b F G F0 L0 C0 N0 E) as (L & _). rewrite L in Ht. rewrite <- (chain_duration i) in Ht.
  pose proof (chain_good g as_ i F Hi) as GS. pose proof (mill_meets g s b0 as_ b i F G F0 B E Hi) as M.
  split; [|split].
  - apply (travelled_derivable 3 3); auto; lia.
  - apply (travelled_derivable 3 3); auto; lia.
  - apply (travelled_continuous 3 3); auto; lia.
Qed.
Theorem motion_start : forall g n s guess b0 a as_ b i, bench0 g n s guess = Some b0 -> Forall (fit g) (a :: as_) ->
  Forall (fun a => good a = true) (a :: as_) -> all_begin g b0 (a :: as_) -> mill_passes g (a :: as_) b0 = Some b -> (i < 3)%nat ->
  let x := travelled (chain i (a :: as_)) in x 0%nat 0 = nth i s 0 /\ x 1%nat 0 = 0 /\ x 2%nat 0 = 0.
Proof.
  intros g n s guess b0 a as_ b i E0 F G B E Hi x.
  destruct (bench0_follows g n s guess b0 E0) as (F0 & _). exact (mill_begin g s b0 a as_ b i F G F0 B E Hi).
Qed.
Theorem motion_end : forall g n s guess b0 as_ a b i, bench0 g n s guess = Some b0 -> Forall (fit g) (as_ ++ [a]) ->
  Forall (fun a => good a = true) (as_ ++ [a]) -> mill_passes g (as_ ++ [a]) b0 = Some b -> (i < 3)%nat ->
  let x := travelled (chain i (as_ ++ [a])) in let D := Q2R (total_of (time_log b)) in
  exists e, ends b = Some e /\ last (traj b) no_sample = e /\
  nth i (q_state e) 0 = x 0%nat D /\ nth i (q_input e) 0 = x 1%nat D /\ nth i (q_dinput e) 0 = x 2%nat D /\ nth i (q_ddinput e) 0 = x 3%nat D.
Proof.
  intros g n s guess b0 as_ a b i E0 F G E Hi x D.
  destruct (bench0_follows g n s guess b0 E0) as (F0 & L0 & T0 & C0 & N0 & _).
  destruct (mill_times g s b0 _ b F G F0 L0 C0 N0 E) as (L & _). unfold D. rewrite L, <- (chain_duration i).
  exact (mill_end g s b0 as_ a b i F G F0 E Hi).
Qed.
Theorem motion_times : forall g n s guess b0 as_ a b, bench0 g n s guess = Some b0 -> Forall (fit g) (as_ ++ [a]) ->
  Forall (fun a => good a = true) (as_ ++ [a]) -> mill_passes g (as_ ++ [a]) b0 = Some b ->
  time_log b = map first_time (as_ ++ [a]) /\ (clock b == total_of (map first_time as_))%Q.
Proof.
  intros g n s guess b0 as_ a b E0 F G E.
  destruct (bench0_follows g n s guess b0 E0) as (F0 & L0 & T0 & C0 & N0 & _).
  destruct (mill_times g s b0 _ b F G F0 L0 C0 N0 E) as (L & C & _). rewrite removelast_last in C. auto.
Qed.
Theorem motion_columns : forall g n s guess b0 as_ b, bench0 g n s guess = Some b0 -> (0 < step g)%Q -> deg g = 3%nat -> length s = 3%nat ->
  Forall (fit g) as_ -> Forall (fun a => good a = true) as_ -> Forall connected as_ -> Forall (within g) as_ -> as_ <> [] ->
  all_begin g b0 as_ -> mill_passes g as_ b0 = Some b -> Forall2 (holds as_) (0 :: stamps g 0 as_) (traj b).
Proof.
  intros g n s guess b0 as_ b E0 S D LS F G C W NE B E. destruct (bench0_follows g n s guess b0 E0) as (F0 & _ & T0 & _).
  apply (mill_columns g s b0); auto.
Qed.
Lemma Forall2_rows : forall as_ ts l, Forall2 (holds as_) ts l ->
  saved_rows l = map (fun t => flat_map (fun i => [travelled (chain i as_) 0 t; travelled (chain i as_) 1 t; travelled (chain i as_) 2 t]) [0; 1; 2]%nat) ts.
Proof.
  intros as_ ts l H. induction H as [|t c ts l (_ & _ & _ & V) H IH]; [reflexivity|].
  unfold saved_rows in *. cbn [map]. rewrite IH. f_equal. cbn [flat_map app].
  destruct (V 0%nat ltac:(lia)) as (A0 & A1 & A2). destruct (V 1%nat ltac:(lia)) as (B0 & B1 & B2). destruct (V 2%nat ltac:(lia)) as (D0 & D1 & D2).
  rewrite A0, A1, A2, B0, B1, B2, D0, D1, D2. reflexivity.
Qed.
Theorem motion_rows : forall g n s guess b0 as_ b, bench0 g n s guess = Some b0 -> (0 < step g)%Q -> deg g = 3%nat -> length s = 3%nat ->
  Forall (fit g) as_ -> Forall (fun a => good a = true) as_ -> Forall connected as_ -> Forall (within g) as_ -> as_ <> [] ->
  all_begin g b0 as_ -> mill_passes g as_ b0 = Some b ->
  saved_rows (traj b) = map (fun t => flat_map (fun i => [travelled (chain i as_) 0 t; travelled (chain i as_) 1 t; travelled (chain i as_) 2 t]) [0; 1; 2]%nat)
    (0 :: stamps g 0 as_).
Proof.
  intros. apply Forall2_rows. apply (motion_columns g n s guess b0 as_ b); auto.
Qed.
(** with failures: the positions of the segments that are carried out fit together *)
Theorem motion_positions : forall g n s guess b0 as_ b i d, bench0 g n s guess = Some b0 -> Forall (fun a => good a = true -> fit g a) as_ ->
  all_begin g b0 as_ -> mill_passes g as_ b0 = Some b -> (i < 3)%nat -> d = 0%nat \/ d = 2%nat ->
  agrees d (chain i (carried as_)) /\ time_log b = map first_time (carried as_).
Proof.
  intros g n s guess b0 as_ b i d E0 F B E Hi Hd. destruct (bench0_follows g n s guess b0 E0) as (F0 & L0 & T0 & _).
  split; [apply (positions_fit g s b0 as_ b); auto|]. apply (log_carried g as_ b0 b L0 E).
Qed.
Theorem count_limit : forall g n s guess b0 as_ b, bench0 g n s guess = Some b0 -> mill_passes g as_ b0 = Some b ->
  forall c, cnt b = Some c -> (c <= 20)%nat.
Proof.
  intros g n s guess b0 as_ b E0 E. destruct (bench0_follows g n s guess b0 E0) as (_ & _ & _ & _ & _ & C0).
  apply (cnt_bounded g as_ b0 b C0 E).
Qed.
