(** Structure of distributed problems (C35) and iteration bookkeeping (C40). *)

From Coq Require Import String List Arith ZArith Lia Permutation Sorted.
From Verif Require Import Dist_Model Dist_Spec Dist_Proofs.
Import ListNotations.
Open Scope string_scope.
Open Scope list_scope.
Open Scope nat_scope.

(* vehicle 0 shares entries 0, 1 with vehicle 2 and 1, 3 with vehicle 1 *)
Definition ex_cons : list depend :=
  [ [ ((0, 0), [("splines_seg0", [1; 0])]); ((2, 0), [("splines_seg0", [0])]) ];
    [ ((1, 0), [("splines_seg0", [2])]); ((0, 0), [("splines_seg0", [3; 1])]) ] ].

(* all vehicles share the same entries *)
Definition ex_ring : list depend :=
  [ [ ((0, 0), [("s", [0; 1])]); ((1, 0), [("s", [0; 1])]) ];
    [ ((1, 0), [("s", [1; 0])]); ((2, 0), [("s", [0; 1])]) ];
    [ ((0, 0), [("s", [1])]); ((2, 0), [("s", [1])]) ] ].

Lemma ex_cons_one : one_child_each ex_cons.
Proof.
  intros dep [a b] [a' b'] H [d1 H1] [d2 H2] E. simpl in E. subst a'.
  simpl in H. destruct H as [<-|[<-|[]]]; simpl in H1, H2;
    destruct H1 as [H1|[H1|[]]]; destruct H2 as [H2|[H2|[]]]; congruence.
Qed.

(* an updater's own table lists exactly the entries of its children that some constraint uses *)
Theorem C35_local : forall cons u c n i,
  In i (q_i (interprete cons) (u, c, n)) <-> u = fst c /\ exists dep, In dep cons /\ uses dep c n i.
Proof. exact interp_q_i. Qed.
Example C35_local_ex : q_i (interprete ex_cons) (0, (0, 0), "splines_seg0") = [0; 1; 3].
Proof. reflexivity. Qed.
Print Assumptions C35_local.

(* the table for a neighbour lists exactly the entries of the neighbour's children in constraints shared with the updater *)
Theorem C35_remote : forall cons u v c n i,
  In i (q_ij (interprete cons) (u, v, c, n)) <->
  v = fst c /\ exists dep d, In dep cons /\ uses dep c n i /\ d <> c /\ u = fst d /\ takes_part dep d.
Proof. exact interp_q_ij. Qed.
Example C35_remote_ex : q_ij (interprete ex_cons) (1, 0, (0, 0), "splines_seg0") = [1; 3].
Proof. reflexivity. Qed.
Print Assumptions C35_remote.

(* index lists are sorted and free of duplicates *)
Theorem C35_sorted : forall cons, (forall k, increasing (q_i (interprete cons) k)) /\ (forall k, increasing (q_ij (interprete cons) k)).
Proof.  intros cons. split; [exact (interp_q_i_inc cons)|exact (interp_q_ij_inc cons)]. Qed.
Print Assumptions C35_sorted.

(* two updaters are neighbours exactly when they share a constraint *)
Theorem C35_neighbours : forall cons u v,
  In v (nghb (interprete cons) u) <->
  exists dep c d, In dep cons /\ c <> d /\ u = fst c /\ v = fst d /\ takes_part dep c /\ takes_part dep d.
Proof. exact interp_nghb. Qed.
Example C35_neighbours_ex : nghb (interprete ex_cons) 0 = [2; 1]. Proof. reflexivity. Qed.
Print Assumptions C35_neighbours.

(* being neighbours is mutual *)
Theorem C35_symmetric : forall cons u v, In v (nghb (interprete cons) u) <-> In u (nghb (interprete cons) v).
Proof. exact interp_nghb_sym. Qed.
Print Assumptions C35_symmetric.

(* a neighbour appears once *)
Theorem C35_neighbours_once : forall cons u, NoDup (nghb (interprete cons) u).
Proof. exact interp_nghb_nodup. Qed.
Print Assumptions C35_neighbours_once.

(* what an updater expects from a neighbour is an own entry of the neighbour, and the neighbour's table of what others see of it has it *)
Theorem C35_expected_is_sent : forall cons u v c n i,
  In i (q_ij (interprete cons) (u, v, c, n)) ->
  In i (q_i (interprete cons) (v, c, n)) /\ In v (nghb (interprete cons) u) /\
  In i (q_ji (interprete cons) v u c n).
Proof.  intros cons u v c n i H. split; [exact (interp_part cons u v c n i H)|]. split; [exact (interp_key cons u v c n i H)|exact H]. Qed.
Print Assumptions C35_expected_is_sent.

(* both tables of an updater have the same keys *)
Theorem C35_ji_keys : forall N cons u v, (forall u v, In v (nghb (interprete cons) u) -> u < N) ->
  (In v (q_ji_keys N (interprete cons) u) <-> In v (nghb (interprete cons) u)).
Proof. exact q_ji_keys_in. Qed.
Example C35_ji_keys_ex : q_ji_keys 3 (interprete ex_cons) 0 = [1; 2]. Proof. reflexivity. Qed.
Print Assumptions C35_ji_keys.

(* copy and original have the same layout when every used entry is shared with that neighbour *)
Theorem C35_same_layout : forall cons u v c n, v = fst c ->
  (forall dep i, In dep cons -> uses dep c n i ->
     exists dep' d, In dep' cons /\ uses dep' c n i /\ d <> c /\ u = fst d /\ takes_part dep' d) ->
  q_ij (interprete cons) (u, v, c, n) = q_i (interprete cons) (v, c, n).
Proof. exact interp_same_layout. Qed.
Example C35_same_layout_ex : q_ij (interprete ex_ring) (1, 0, (0, 0), "s") = q_i (interprete ex_ring) (0, (0, 0), "s").
Proof. reflexivity. Qed.
Print Assumptions C35_same_layout.

(* in general the copy is shorter than the original, so that the whole-vector assignment x_j = x_i of the exchange mixes sizes *)
Theorem C35_layout_refuted : exists cons u v c n, one_child_each cons /\ In v (nghb (interprete cons) u) /\ v = fst c /\
  q_ij (interprete cons) (u, v, c, n) <> q_i (interprete cons) (v, c, n).
Proof.  exists ex_cons, 1, 0, (0, 0), "splines_seg0". split; [exact ex_cons_one|]. repeat split.
  - simpl. auto.
  - discriminate. Qed.
Print Assumptions C35_layout_refuted.

(* no updater is its own neighbour as long as no constraint has two children of one updater *)
Theorem C35_no_self : forall cons u, one_child_each cons -> ~ In u (nghb (interprete cons) u).
Proof. exact interp_no_self. Qed.
Example C35_no_self_ex : one_child_each ex_cons. Proof. exact ex_cons_one. Qed.
Print Assumptions C35_no_self.

(* with two children of one updater in a constraint the updater becomes its own neighbour and gets the constraint twice *)
Theorem C35_self_refuted : exists cons u, In u (nghb (interprete cons) u) /\ gcon (interprete cons) u = [0; 0].
Proof.  exists [ [ ((0, 0), [("a", [0])]); ((0, 1), [("b", [0])]) ] ], 0. split; [simpl; auto|reflexivity]. Qed.
Print Assumptions C35_self_refuted.

(* every updater gets exactly the constraints that its children take part in *)
Theorem C35_constraints : forall cons u j,
  In j (gcon (interprete cons) u) <->
  exists dep c, nth_error cons j = Some dep /\ u = fst c /\ takes_part dep c.
Proof. exact interp_gcon. Qed.
Example C35_constraints_ex : gcon (interprete ex_cons) 0 = [0; 1]. Proof. reflexivity. Qed.
Print Assumptions C35_constraints.

(* sorting the tables keeps the neighbours and orders them by the sort key *)
Theorem C35_order : forall N ref keys, Permutation (sort_dict N ref keys) keys /\
  StronglySorted (fun a b => ring_key N ref a <= ring_key N ref b) (sort_dict N ref keys).
Proof.  intros. split; [apply sort_by_perm|apply sort_by_sorted]. Qed.
Example C35_order_ex : sort_dict 5 2 [0; 1; 3; 4] = [3; 4; 0; 1]. Proof. reflexivity. Qed.
Print Assumptions C35_order.

(* the key is the distance around the ring, starting after the updater itself *)
Theorem C35_ring_order : forall N ref i, ref < N -> i < N -> i <> ref ->
  ring_key N ref i - ref = (i + N - ref) mod N.
Proof. exact ring_key_order. Qed.
Example C35_ring_order_ex : map (ring_key 5 2) [3; 4; 0; 1] = [3; 4; 5; 6]. Proof. reflexivity. Qed.
Print Assumptions C35_ring_order.

Open Scope Z_scope.

(* solve performs max_iter_per_update dual updates, and every history grows by as many entries *)
Theorem C40_solve : forall fuel m c c', solve fuel m c = Some c' ->
  let k := Z.max 0 m in
  c' = mkCounters (iteration c + k) (n_objectives c + k) (n_stacked c + k) (n_residuals c + k) (n_times c + k).
Proof. exact solve_count. Qed.
Example C40_solve_ex : solve 3 3 (mkCounters 7 0 1 0 0) = Some (mkCounters 10 3 4 3 3). Proof. reflexivity. Qed.
Print Assumptions C40_solve.

(* and always ends *)
Theorem C40_solve_terminates : forall m c, exists fuel c', solve fuel m c = Some c'.
Proof. exact solve_terminates. Qed.
Print Assumptions C40_solve_terminates.

(* after initialisation and any number of updates: one stacked vector more than objectives, and as many residuals and times as iterations *)
Theorem C40_histories : forall i n fuel m c c1 c2,
  initialize i fuel m c = Some c1 -> solves n fuel m c1 = Some c2 ->
  n_objectives c2 = Z.of_nat (i + n) * Z.max 0 m /\
  n_stacked c2 = n_objectives c2 + 1 /\
  iteration c2 = iteration c + n_objectives c2 /\
  n_residuals c2 = n_residuals c + n_objectives c2 /\ n_times c2 = n_times c + n_objectives c2.
Proof. exact initialize_count. Qed.
Example C40_histories_ex : initialize 2 5 3 (mkCounters 0 0 0 0 0) = Some (mkCounters 6 6 7 6 6).
Proof. reflexivity. Qed.
Print Assumptions C40_histories.

(* with an iteration limit the run stops exactly when the limit is exceeded *)
Theorem C40_stop_limit : forall m it subs, m <> 0 -> (stop_criterium (Some m) it subs = true <-> m < it).
Proof. exact stop_max_iter. Qed.
Example C40_stop_limit_ex : stop_criterium (Some 10) 11 [false] = true. Proof. reflexivity. Qed.
Print Assumptions C40_stop_limit.

(* without one exactly when all vehicles have arrived *)
Theorem C40_stop_arrival : forall it subs, stop_criterium None it subs = true <-> Forall (fun b => b = true) subs.
Proof. exact stop_all. Qed.
Print Assumptions C40_stop_arrival.

(* with a limit arrival is not tested at all: all vehicles arrived, yet no stop *)
Theorem C40_stop_refuted : exists m it subs, Forall (fun b => b = true) subs /\ stop_criterium (Some m) it subs = false.
Proof.  exists 10, 5, [true; true]. split; [repeat constructor|reflexivity]. Qed.
Print Assumptions C40_stop_refuted.

(* the residual plot has as many marks as values exactly while the plotted time index stays below the number of updates *)
Theorem C40_residual_plot : forall n_res i m t,
  plot_marks i m t = plot_values n_res i m t <-> i + t * m < n_res.
Proof. exact plot_ok. Qed.
Example C40_residual_plot_ex : plot_marks 2 1 10 = plot_values 20 2 1 10. Proof. reflexivity. Qed.
Print Assumptions C40_residual_plot.

(* time-sample indices, of which there are more than updates, break it *)
Theorem C40_residual_plot_refuted : exists n_res i m t, 0 <= t /\ plot_marks i m t <> plot_values n_res i m t.
Proof.  exists 20, 2, 1, 50. split; [discriminate|discriminate]. Qed.
Print Assumptions C40_residual_plot_refuted.
