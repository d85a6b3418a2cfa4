(** Properties of fleets and formation problems. *)

From Coq Require Import String List Arith Reals Lra.
From Verif Require Import Fleet_Model Fleet_Spec Fleet_Proofs.
Import ListNotations.
Open Scope string_scope.
Open Scope list_scope.
Open Scope nat_scope.

(* circular, at least three vehicles: exactly two different neighbours *)
Theorem C32_circular : forall N l, 3 <= N -> l < N ->
  exists a b, circ N l = [a; b] /\ a <> b /\ a <> l /\ b <> l /\ a < N /\ b < N.
Proof. exact circ_two. Qed.
Example C32_circular_ex : circ 5 4 = [0; 3]. Proof. reflexivity. Qed.
Print Assumptions C32_circular.

(* being neighbours is mutual, for every fleet size *)
Theorem C32_circular_symmetric : forall N k l, k < N -> l < N -> In k (circ N l) -> In l (circ N k).
Proof. exact circ_sym. Qed.
Example C32_circular_symmetric_ex : In 0 (circ 5 4) /\ In 4 (circ 5 0). Proof. simpl. tauto. Qed.
Print Assumptions C32_circular_symmetric.

(* full interconnection: everyone else is a neighbour *)
Theorem C32_full : forall N l k, In k (full N l) <-> k < N /\ k <> l.
Proof. exact full_in. Qed.
Example C32_full_ex : full 4 2 = [0; 1; 3]. Proof. reflexivity. Qed.
Print Assumptions C32_full.

(* each of them once *)
Theorem C32_full_once : forall N l, NoDup (full N l).
Proof. exact full_nodup. Qed.
Print Assumptions C32_full_once.

(* with two vehicles the circular list names the same neighbour twice, with one the vehicle itself *)
Theorem C32_small_refuted : (exists l, l < 2 /\ exists a, circ 2 l = [a; a]) /\ In 0 (circ 1 0).
Proof.  split; [exists 0; split; [auto|exists 1; reflexivity]|simpl; tauto]. Qed.
Print Assumptions C32_small_refuted.

(* any other interconnection string is rejected *)
Theorem C32_strings : forall s N nb, neighbours s N = Some nb -> (s = "circular" /\ nb = circ N) \/ (s = "full" /\ nb = full N).
Proof.  intros s N nb H. unfold neighbours in H. destruct (String.eqb_spec s "circular"); [left; split; congruence|]. destruct (String.eqb_spec s "full"); [right; split; congruence|discriminate]. Qed.
Print Assumptions C32_strings.

(* relative configurations are antisymmetric *)
Theorem C32_antisymmetric : forall a b r, rel_config a b = Some r -> rel_config b a = Some (map Ropp r).
Proof. exact rel_config_antisym. Qed.
Example C32_antisymmetric_ex : rel_config [1; 2]%R [0; 5]%R = Some [1 - 0; 2 - 5]%R. Proof. reflexivity. Qed.
Print Assumptions C32_antisymmetric.

(* and are the entrywise differences *)
Theorem C32_difference : forall a b r k, rel_config a b = Some r -> k < length a -> nth k r 0%R = (nth k a 0 - nth k b 0)%R.
Proof. exact rel_config_nth. Qed.
Print Assumptions C32_difference.

(* turning a planar configuration keeps the distances between vehicles *)
Theorem C32_orientation : forall o a b a' b' x y x' y', turned o [a; b] = [x; y] -> turned o [a'; b'] = [x'; y'] ->
  ((x - x') ^ 2 + (y - y') ^ 2 = (a - a') ^ 2 + (b - b') ^ 2)%R.
Proof. exact turned_distance. Qed.
Example C32_orientation_ex : turned 0 [1; 2]%R = [1; 2]%R. Proof. apply turned_zero. Qed.
Print Assumptions C32_orientation.

(* a configuration is accepted exactly when there is one entry per vehicle and all entries have the same size *)
Theorem C32_configuration : forall s N nb configuration o, neighbours s N = Some nb ->
  (exists conf, set_configuration nb N configuration o = Some conf) <->
  length configuration = N /\
  forall c c', In c configuration -> In c' configuration -> length c = length c'.
Proof. exact set_configuration_ok. Qed.
Example C32_configuration_ex : neighbours "full" 2 = Some (full 2) /\
  exists c, set_configuration (full 2) 2 [[1; 2]; [3; 4]]%R 0 = Some c.
Proof. split; [reflexivity|]. eexists. reflexivity. Qed.
Print Assumptions C32_configuration.

(* and stored turned by the orientation *)
Theorem C32_configuration_value : forall nb N configuration o conf v, v < N ->
  set_configuration nb N configuration o = Some conf -> conf v = turned o (nth v configuration []).
Proof. exact set_configuration_value. Qed.
Print Assumptions C32_configuration_value.

(* for any neighbour table every neighbouring pair gets a constraint *)
Theorem C33_couples_cover : forall nb N v n, v < N -> In n (nb v) -> In n (couples_of nb N v) \/ In v (couples_of nb N n).
Proof. exact couples_cover. Qed.
Print Assumptions C33_couples_cover.

(* only neighbouring pairs get one *)
Theorem C33_couples_only : forall nb N v n, In n (couples_of nb N v) -> v < N /\ In n (nb v).
Proof. exact couples_in. Qed.
Print Assumptions C33_couples_only.

(* and each pair only once, in one direction *)
Theorem C33_couples_once : forall nb N, (forall v, v < N -> ~ In v (nb v)) -> simple_pairs (pairs_of N (couples_of nb N)).
Proof. exact couples_simple. Qed.
Example C33_couples_once_ex : pairs_of 4 (couples_of (circ 4) 4) = [(0, 1); (0, 3); (1, 2); (2, 3)]. Proof. reflexivity. Qed.
Print Assumptions C33_couples_once.

(* a circular fleet has as many constrained pairs as vehicles *)
Theorem C33_circular_count : forall N, 3 <= N -> length (pairs_of N (couples_of (circ N) N)) = N.
Proof. exact circ_pairs_count. Qed.
Print Assumptions C33_circular_count.

(* a fully connected one has one per unordered pair *)
Theorem C33_full_count : forall N, 2 * length (pairs_of N (couples_of (full N) N)) = N * (N - 1).
Proof. exact full_pairs_count. Qed.
Example C33_full_count_ex : length (pairs_of 5 (couples_of (full 5) 5)) = 10. Proof. reflexivity. Qed.
Print Assumptions C33_full_count.

(* the constrained pairs connect the whole fleet *)
Theorem C33_connected : forall s N nb, neighbours s N = Some nb -> spans N (pairs_of N (couples_of nb N)).
Proof.  intros s N nb H. exact (proj2 (neighbours_ok s N nb H)). Qed.
Print Assumptions C33_connected.

(* the constraints hold exactly when the vehicles are in the configured formation at all times *)
Theorem C33_formation : forall s N nb d position conf, neighbours s N = Some nb ->
  (forall v, v < N -> d <= length (position v)) -> (forall v, v < N -> length (conf v) = d) ->
  let centra := fun v => fleet_center (position v) (rel_pos_c (conf v)) in
  (forall p, In p (pairs_of N (couples_of nb N)) -> couple_holds centra (fun _ => seq 0 d) p) <->
  in_formation N d position conf.
Proof. exact formation_of. Qed.
Example C33_formation_ex : neighbours "circular" 3 = Some (circ 3) /\
  in_formation 3 1 (fun v => [fun t => (t + INR v)%R]) (fun v => [INR v]).
Proof.
  split; [reflexivity|]. intros u v k t Hu Hv Hk.
  destruct k; [simpl; ring|]. exfalso. inversion Hk. inversion H0.
Qed.
Print Assumptions C33_formation.

(* equivalently all vehicles see the same fleet centre *)
Theorem C33_centre : forall s N nb d position conf, neighbours s N = Some nb ->
  (forall v, v < N -> d <= length (position v)) -> (forall v, v < N -> length (conf v) = d) ->
  let centra := fun v => fleet_center (position v) (rel_pos_c (conf v)) in
  (forall p, In p (pairs_of N (couples_of nb N)) -> couple_holds centra (fun _ => seq 0 d) p) <->
  same_centre N d centra.
Proof. exact centre_of. Qed.
Print Assumptions C33_centre.

(* a configuration dictionary that names only the second coordinate cannot be built at all: the centre list is paired by place and has no entry 1 *)
Theorem C33_keys_refuted : exists position conf (keys : list nat),
  length position = 2 /\ length conf = length keys /\ (forall k, In k keys -> k < 2) /\
  forall centra, centra 0 = fleet_center position (rel_pos_c conf) -> centra 1 = centra 0 ->
  ~ couple_holds centra (fun _ => keys) (0, 1).
Proof.  exists [fun t => t; fun t => t], [1%R], [1]. split; [reflexivity|]. split; [reflexivity|].
  split; [intros k [<-|[]]; auto|]. intros centra H _.
  apply (couple_missing_key centra (fun _ => [1]) 0 1 1 1); [simpl; auto|]. rewrite H, fleet_center_length. simpl. auto. Qed.
Print Assumptions C33_keys_refuted.

(* the rendez-vous stop residual is zero exactly when the whole fleet is in formation *)
Theorem C33_rendezvous : forall s N nb d pos conf rc, neighbours s N = Some nb ->
  (forall v, v < N -> length (pos v) = d) -> (forall v, v < N -> length (conf v) = d) ->
  (forall v n, v < N -> In n (nb v) -> rel_config (conf v) (conf n) = Some (rc v n)) ->
  (rdv_residual nb N pos rc = 0%R <->
   in_formation N d (fun v => map (fun x (_ : R) => x) (pos v)) conf).
Proof. exact rdv_formation. Qed.
Example C33_rendezvous_ex : rdv_residual (circ 3) 3 (fun v => [INR v]) (fun v n => [INR v - INR n]%R) = 0%R.
Proof. unfold rdv_residual, rdv_term. simpl. ring. Qed.
Print Assumptions C33_rendezvous.

(* when it stops every coordinate of every neighbouring pair is within 0.05 *)
Theorem C33_rendezvous_stop : forall nb N pos rc v n k, rdv_stop nb N pos rc = true -> v < N -> In n (nb v) ->
  k < length (pos v) -> length (pos n) = length (pos v) -> length (rc v n) = length (pos v) ->
  (Rabs (nth k (pos v) 0 - nth k (pos n) 0 - nth k (rc v n) 0) <= 5 / 100)%R.
Proof. exact rdv_stop_bound. Qed.
Example C33_rendezvous_stop_ex : rdv_stop (circ 3) 3 (fun v => [INR v]) (fun v n => [INR v - INR n]%R) = true.
Proof. unfold rdv_stop. rewrite C33_rendezvous_ex, sqrt_0. destruct (Rlt_dec _ _) as [H|H]; [exfalso; lra|reflexivity]. Qed.
Print Assumptions C33_rendezvous_stop.

(* what is left after dropping the last two vehicles' entries *)
Theorem C34_couples : forall N, 3 <= N -> exists c, central_couples "circular" (circ N) N = Some c /\
  (forall v, v < N -> c v = if v =? 0 then [1; N - 1] else if v + 2 <? N then [v + 1] else []).
Proof. exact central_circ. Qed.
Example C34_couples_ex : option_map (pairs_of 5) (central_couples "circular" (circ 5) 5) = Some [(0, 1); (0, 4); (1, 2); (2, 3)].
Proof. reflexivity. Qed.
Print Assumptions C34_couples.

(* still connects the whole fleet *)
Theorem C34_connected : forall N c, 3 <= N -> central_couples "circular" (circ N) N = Some c -> spans N (pairs_of N c).
Proof. exact central_spans. Qed.
Print Assumptions C34_connected.

(* with the smallest possible number of pairs *)
Theorem C34_count : forall N c, 3 <= N -> central_couples "circular" (circ N) N = Some c -> length (pairs_of N c) = N - 1.
Proof. exact central_count. Qed.
Print Assumptions C34_count.

(* so the central problem's constraints are the formation, too *)
Theorem C34_formation : forall s N nb c d position conf, neighbours s N = Some nb -> (s = "circular" -> 3 <= N) ->
  central_couples s nb N = Some c ->
  (forall v, v < N -> d <= length (position v)) -> (forall v, v < N -> length (conf v) = d) ->
  let centra := fun v => fleet_center (position v) (rel_pos_c (conf v)) in
  (forall p, In p (pairs_of N c) -> couple_holds centra (fun _ => seq 0 d) p) <->
  in_formation N d position conf.
Proof. exact central_formation_of. Qed.
Print Assumptions C34_formation.

(* with two vehicles no constraint is left *)
Theorem C34_two_refuted : exists c, central_couples "circular" (circ 2) 2 = Some c /\ pairs_of 2 c = [].
Proof. exact central_two. Qed.
Print Assumptions C34_two_refuted.

(* with one vehicle the construction raises IndexError *)
Theorem C34_one_refuted : central_couples "circular" (circ 1) 1 = None.
Proof. exact central_one. Qed.
Print Assumptions C34_one_refuted.
