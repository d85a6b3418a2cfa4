(** Several vehicles in one problem (C172-C178). *)
From Coq Require Import String.
From Coq Require Import Reals List Arith Lia Lra.
From Verif Require Import Spline_Model Spline_Spec Vehicle_Model Vehicle_Spec Geom_Spec Lift_Model Lift_Spec Bern_Spec Bern_Proofs Bern_Proofs4 Bern_Proofs5
  Team_Model Team_Proofs Team_Proofs2 Team_Proofs3 Team_Examples.
Import ListNotations.
Local Open Scope list_scope.
From Verif Require Opti_Spec.
Local Notation length := List.length.
Local Notation no_us := Opti_Spec.no_underscore.
Local Open Scope R_scope.
Local Ltac us := cbn; repeat (constructor; try discriminate); try discriminate.
Local Ltac fit := repeat split; try apply duo_unit; try (cbn; lia).

(* planar vehicles: at every time the shapes of two vehicles are apart by their radii and what is left of their safety distances *)
Theorem C172_apart : forall var env n_seg vs cs X idx v w c1 r1 x1 y1 t1 o1 c2 r2 x2 y2 t2 o2 tau,
  apart_cons var env 2 n_seg vs = Some cs -> solved 0 X cs -> (idx < n_seg)%nat ->
  In v vs -> In w vs -> m_label v <> m_label w -> (1 <= m_shapes v)%nat -> (1 <= m_shapes w)%nat ->
  m_body v = Planar c1 r1 x1 y1 t1 o1 -> m_body w = Planar c2 r2 x2 y2 t2 o2 ->
  (forall l n c, on_unit (X (var l n c))) ->
  (forall e, In e [x1 idx; y1 idx; t1 idx; x2 idx; y2 idx; t2 idx] -> fits X e) -> 0 <= tau <= 1 ->
  let at_ e := sval (jets X tau) e in
  exists e1 e2, 0 <= e1 <= Rmax 0 (m_sd v) /\ 0 <= e2 <= Rmax 0 (m_sd w) /\
  forall p q, hull (map (world (at_ (x1 idx), at_ (y1 idx)) (2 * atan (at_ (t1 idx))) o1) c1) p ->
              hull (map (world (at_ (x2 idx), at_ (y2 idx)) (2 * atan (at_ (t2 idx))) o2) c2) q ->
  (r1 + m_sd v - e1) + (r2 + m_sd w - e2) <= dist p q.
Proof. exact planar_apart. Qed.
Example C172_apart_ex : exists cs, apart_cons duo_var "environment0" 2 1 [duo 1 "vehicle0"; duo 2 "vehicle1"] = Some cs /\ solved 0 duoX cs /\
  forall tau, 0 <= tau <= 1 -> exists e1 e2, 0 <= e1 <= Rmax 0 (1/2) /\ 0 <= e2 <= Rmax 0 (1/2) /\
  (1 + 1/2 - e1) + (1 + 1/2 - e2) <=
  dist (world (sval (jets duoX tau) (SV 0 0), sval (jets duoX tau) (SV 1 0)) (2 * atan (sval (jets duoX tau) (SV 1 0))) 0 (0, 0))
       (world (sval (jets duoX tau) (SV 0 0), sval (jets duoX tau) (SV 2 0)) (2 * atan (sval (jets duoX tau) (SV 1 0))) 0 (0, 0)).
Proof.
  destruct duo_solved as (cs & E & Sv). exists cs. split; [exact E|]. split; [exact Sv|]. intros tau I.
  destruct (C172_apart duo_var "environment0" 1 _ cs duoX 0 (duo 1 "vehicle0") (duo 2 "vehicle1")
    [(0, 0)] 1 (fun _ => SV 0 0) (fun _ => SV 1 0) (fun _ => SV 1 0) 0 [(0, 0)] 1 (fun _ => SV 0 0) (fun _ => SV 2 0) (fun _ => SV 1 0) 0 tau E Sv) as (e1 & e2 & E1 & E2 & P);
    try (cbn; lia); try (cbn; tauto); try reflexivity; try exact I; try discriminate.
  - intros l n c. apply duo_unit.
  - intros e H. cbn [In] in H. repeat (destruct H as [<-|H]; [fit|]). destruct H.
  - exists e1, e2. split; [exact E1|]. split; [exact E2|]. apply P; apply hull_vertex; left; reflexivity.
Qed.
Print Assumptions C172_apart.

(* the same for vehicles in space *)
Theorem C173_apart3 : forall var env n_seg vs cs X idx v w c1 r1 x1 y1 z1 c2 r2 x2 y2 z2 tau,
  apart_cons var env 3 n_seg vs = Some cs -> solved 0 X cs -> (idx < n_seg)%nat ->
  In v vs -> In w vs -> m_label v <> m_label w -> (1 <= m_shapes v)%nat -> (1 <= m_shapes w)%nat ->
  m_body v = Space c1 r1 x1 y1 z1 -> m_body w = Space c2 r2 x2 y2 z2 ->
  (forall l n c, on_unit (X (var l n c))) ->
  (forall e, In e [x1 idx; y1 idx; z1 idx; x2 idx; y2 idx; z2 idx] -> fits X e) -> 0 <= tau <= 1 ->
  let at_ e := sval (jets X tau) e in
  exists e1 e2, 0 <= e1 <= Rmax 0 (m_sd v) /\ 0 <= e2 <= Rmax 0 (m_sd w) /\
  forall p q, hull3 (map (plus3 (at_ (x1 idx), at_ (y1 idx), at_ (z1 idx))) c1) p ->
              hull3 (map (plus3 (at_ (x2 idx), at_ (y2 idx), at_ (z2 idx))) c2) q ->
  (r1 + m_sd v - e1) + (r2 + m_sd w - e2) <= dist3 p q.
Proof. exact space_apart. Qed.
Example C173_apart3_ex : exists cs, apart_cons duo_var "environment0" 3 1 [duo3 1 "vehicle0"; duo3 2 "vehicle1"] = Some cs /\ solved 0 duoX cs /\
  forall tau, 0 <= tau <= 1 -> exists e1 e2, 0 <= e1 <= Rmax 0 0 /\ 0 <= e2 <= Rmax 0 0 /\
  (3/2 + 0 - e1) + (3/2 + 0 - e2) <=
  dist3 (plus3 (sval (jets duoX tau) (SV 0 0), sval (jets duoX tau) (SV 1 0), sval (jets duoX tau) (SV 0 0)) (0, 0, 0))
        (plus3 (sval (jets duoX tau) (SV 0 0), sval (jets duoX tau) (SV 2 0), sval (jets duoX tau) (SV 0 0)) (0, 0, 0)).
Proof.
  destruct duo3_solved as (cs & E & Sv). exists cs. split; [exact E|]. split; [exact Sv|]. intros tau I.
  destruct (C173_apart3 duo_var "environment0" 1 _ cs duoX 0 (duo3 1 "vehicle0") (duo3 2 "vehicle1")
    [(0, 0, 0)] (3/2) (fun _ => SV 0 0) (fun _ => SV 1 0) (fun _ => SV 0 0) [(0, 0, 0)] (3/2) (fun _ => SV 0 0) (fun _ => SV 2 0) (fun _ => SV 0 0) tau E Sv) as (e1 & e2 & E1 & E2 & P);
    try (cbn; lia); try (cbn; tauto); try reflexivity; try exact I; try discriminate.
  - intros l n c. apply duo_unit.
  - intros e H. cbn [In] in H. repeat (destruct H as [<-|H]; [fit|]). destruct H.
  - exists e1, e2. split; [exact E1|]. split; [exact E2|]. apply P; apply hull3_vertex; left; reflexivity.
Qed.
Print Assumptions C173_apart3.

(* building the constraints raises exactly for a vehicle of another dimension or with two or more shapes *)
Theorem C174_raises : forall var env n n_seg vs, apart_cons var env n n_seg vs = None <->
  (exists v, In v vs /\ m_dim v <> n) \/ ((1 <= n_seg)%nat /\ exists v, In v vs /\ (2 <= m_shapes v)%nat).
Proof. exact apart_raises. Qed.
Example C174_raises_ex : apart_cons duo_var "environment0" 2 1 [duo 1 "vehicle0"; Member "vehicle1" 2 0 (m_body (duo 2 "vehicle1"))] = None /\
  apart_cons duo_var "environment0" 2 1 [duo 1 "vehicle0"; duo3 2 "vehicle1"] = None /\
  apart_cons duo_var "environment0" 2 1 [duo 1 "vehicle0"; duo 2 "vehicle1"] <> None.
Proof.
  split; [|split]; [apply C174_raises; right; split; [lia|]; eexists; split; [right; left; reflexivity|cbn; lia]
                   |apply C174_raises; left; eexists; split; [right; left; reflexivity|cbn; lia]|discriminate].
Qed.
Print Assumptions C174_raises.

(* the names of the hyperplane variables tell the kind, the segment, both vehicles and both shapes apart *)
Theorem C175_names : forall p p' idx idx' v v' w w' kk kk' ll ll',
  no_us p -> no_us p' -> no_us (m_label v) -> no_us (m_label v') -> no_us (m_label w) -> no_us (m_label w') ->
  inter_name p idx v kk w ll = inter_name p' idx' v' kk' w' ll' ->
  p = p' /\ idx = idx' /\ m_label v = m_label v' /\ kk = kk' /\ m_label w = m_label w' /\ ll = ll'.
Proof. exact inter_names. Qed.
Example C175_names_ex : no_us "a" /\ no_us "vehicle0" /\ no_us "vehicle1" /\
  inter_name "a" 0 (duo 1 "vehicle0") 0 (duo 2 "vehicle1") 0 <> inter_name "a" 1 (duo 1 "vehicle0") 0 (duo 2 "vehicle1") 0.
Proof.
  assert (A : no_us "a") by us. assert (V : no_us "vehicle0") by us. assert (W : no_us "vehicle1") by us.
  repeat (split; [assumption|]). intros H. apply C175_names in H; [destruct H as (_ & H & _); discriminate|assumption..].
Qed.
Print Assumptions C175_names.

(* and they are never those of a hyperplane between a vehicle and an obstacle *)
Theorem C175_kinds : forall p p' idx idx' v v' w kk ll k l,
  no_us p -> no_us p' -> no_us (m_label v) -> no_us (m_label v') ->
  inter_name p idx v kk w ll <> obst_name p' idx' v' k l.
Proof. exact inter_obst_names. Qed.
Example C175_kinds_ex : inter_name "a" 0 (duo 1 "vehicle0") 0 (duo 2 "vehicle1") 0 <> obst_name "a" 0 (duo 1 "vehicle0") 0 0.
Proof. apply C175_kinds; us. Qed.
Print Assumptions C175_kinds.

(* the names of the slacks do not tell shape and hyperplane apart *)
Theorem C175_slack_refuted : exists s k s' k', (s, k) <> (s', k') /\ eps_name s k = eps_name s' k'.
Proof. exact slack_names. Qed.
Example C175_slack_refuted_ex : eps_name 1 11 = eps_name 11 1.
Proof. reflexivity. Qed.
Print Assumptions C175_slack_refuted.

(* the vehicles keep their configuration at every time *)
Theorem C176_keeps : forall s N d pos conf cs X tau u v k,
  central_cons None s N d pos conf = Some cs -> (s = "circular"%string -> (3 <= N)%nat) -> solved 0 X cs ->
  (forall a i, (a < N)%nat -> (i < d)%nat -> fits X (pos a i) /\ mentions (pos a i) = true) ->
  (forall a, (a < N)%nat -> length (conf a) = d) -> 0 <= tau <= 1 -> (u < N)%nat -> (v < N)%nat -> (k < d)%nat ->
  let at_ e := sval (jets X tau) e in
  at_ (pos u k) - at_ (pos v k) = nth k (conf u) 0 - nth k (conf v) 0.
Proof. exact central_keeps. Qed.
Example C176_keeps_ex : exists cs, central_cons None "circular" 3 2 trio_pos trio_conf = Some cs /\ solved 0 duoX cs /\
  forall tau, 0 <= tau <= 1 -> sval (jets duoX tau) (trio_pos 1 1) - sval (jets duoX tau) (trio_pos 2 1) = 2 - 0.
Proof.
  destruct trio_solved as (cs & E & Sv). exists cs. split; [exact E|]. split; [exact Sv|]. intros tau I.
  apply (C176_keeps "circular" 3 2 trio_pos trio_conf cs duoX tau 1 2 1 E); try lia; try assumption; try reflexivity.
  intros a i _ _. destruct i as [|i], a as [|[|a]]; (split; [fit|reflexivity]).
Qed.
Print Assumptions C176_keeps.

(* two vehicles in a circular formation are not held together *)
Theorem C176_two_refuted : exists d pos conf X cs,
  central_cons None "circular" 2 d pos conf = Some cs /\ solved 0 X cs /\ (forall a, length (conf a) = d) /\
  (forall a i, fits X (pos a i) /\ mentions (pos a i) = true) /\
  exists u v k, (u < 2)%nat /\ (v < 2)%nat /\ (k < d)%nat /\ forall tau, 0 <= tau <= 1 ->
    sval (jets X tau) (pos u k) - sval (jets X tau) (pos v k) <> nth k (conf u) 0 - nth k (conf v) 0.
Proof. exact two_in_circle. Qed.
Example C176_two_refuted_ex : central_cons None "circular" 2 2 trio_pos trio_conf = Some [].
Proof. reflexivity. Qed.
Print Assumptions C176_two_refuted.

(* a soft formation: every two vehicles deviate from their configuration by at most the slack, in a circle by at most N - 1 times the slack *)
Theorem C177_soft : forall dev eps s N d pos conf cs X tau k,
  central_cons (Some (dev, eps)) s N d pos conf = Some cs -> (s = "circular"%string -> (3 <= N)%nat) -> (2 <= N)%nat ->
  solved 0 X cs ->
  (forall a i, (a < N)%nat -> (i < d)%nat -> fits X (pos a i) /\ mentions (pos a i) = true) ->
  (forall n, fits X (eps n) /\ mentions (eps n) = true) ->
  (forall a, (a < N)%nat -> length (conf a) = d) -> 0 <= tau <= 1 -> (k < d)%nat ->
  let at_ e := sval (jets X tau) e in
  let e := at_ (eps (form_name k k)) in
  0 <= e /\ (forall m, dev = Some m -> e <= Rabs m) /\
  forall u v, (u < N)%nat -> (v < N)%nat ->
    Rabs ((at_ (pos u k) - at_ (pos v k)) - (nth k (conf u) 0 - nth k (conf v) 0))
      <= (if String.eqb s "full" then 1 else INR (N - 1)) * e.
Proof. exact central_soft. Qed.
Example C177_soft_ex : exists cs, central_cons (Some (Some (-(1/5)), late_eps)) "circular" 3 2 late_pos trio_conf = Some cs /\ solved 0 duoX cs /\
  forall tau, 0 <= tau <= 1 -> let at_ e := sval (jets duoX tau) e in
  Rabs ((at_ (late_pos 1 0) - at_ (late_pos 2 0)) - (0 - 0)) <= INR 2 * at_ (SV 6 0) /\ at_ (SV 6 0) <= Rabs (-(1/5)).
Proof.
  destruct late_solved as (cs & E & Sv). exists cs. split; [exact E|]. split; [exact Sv|]. intros tau I at_.
  destruct (C177_soft _ late_eps "circular" 3 2 late_pos trio_conf cs duoX tau 0 E) as (_ & D & P); try lia; try assumption; try reflexivity.
  - intros a i _ _. destruct i as [|i], a as [|[|a]]; (split; [fit|reflexivity]).
  - intros n. split; [fit|reflexivity].
  - split; [exact (P 1%nat 2%nat ltac:(lia) ltac:(lia))|exact (D _ eq_refl)].
Qed.
Print Assumptions C177_soft.

(* a configuration that leaves no room for two discs cannot be kept while they stay apart *)
Theorem C178_room : forall s N conf pos cs X var env n_seg vs cs' idx u v mu mv r1 r2 t1 t2,
  central_cons None s N 2 pos conf = Some cs -> (s = "circular"%string -> (3 <= N)%nat) -> solved 0 X cs ->
  (forall a i, (a < N)%nat -> (i < 2)%nat -> fits X (pos a i) /\ mentions (pos a i) = true) ->
  (forall a, (a < N)%nat -> length (conf a) = 2%nat) ->
  apart_cons var env 2 n_seg vs = Some cs' -> solved 0 X cs' -> (idx < n_seg)%nat ->
  (forall l n c, on_unit (X (var l n c))) -> fits X (t1 idx) -> fits X (t2 idx) ->
  (u < N)%nat -> (v < N)%nat -> In mu vs -> In mv vs -> m_label mu <> m_label mv ->
  (1 <= m_shapes mu)%nat -> (1 <= m_shapes mv)%nat ->
  m_body mu = Planar [(0, 0)] r1 (fun _ => pos u 0%nat) (fun _ => pos u 1%nat) t1 0 ->
  m_body mv = Planar [(0, 0)] r2 (fun _ => pos v 0%nat) (fun _ => pos v 1%nat) t2 0 ->
  r1 + r2 + Rmin 0 (m_sd mu) + Rmin 0 (m_sd mv) <= dist (nth 0 (conf u) 0, nth 1 (conf u) 0) (nth 0 (conf v) 0, nth 1 (conf v) 0).
Proof. exact formation_room. Qed.
Example C178_room_ex : exists cs cs', central_cons None "full" 2 2 trio_pos trio_conf = Some cs /\ solved 0 duoX cs /\
  apart_cons duo_var "environment0" 2 1 [duo 1 "vehicle0"; duo 2 "vehicle1"] = Some cs' /\ solved 0 duoX cs' /\ 1 + 1 <= dist (0, -1) (0, 2).
Proof.
  destruct pair_solved as (cs & E & Sv). destruct duo_solved as (cs' & E' & Sv'). exists cs, cs'.
  split; [exact E|]. split; [exact Sv|]. split; [exact E'|]. split; [exact Sv'|].
  pose proof (C178_room "full" 2 trio_conf trio_pos cs duoX duo_var "environment0" 1 [duo 1 "vehicle0"; duo 2 "vehicle1"] cs' 0 0 1 (duo 1 "vehicle0") (duo 2 "vehicle1") 1 1 (fun _ => SV 1 0) (fun _ => SV 1 0) E) as P.
  cbn [m_sd duo] in P. replace (Rmin 0 (1 / 2)) with 0 in P by (unfold Rmin; destruct (Rle_dec 0 (1 / 2)); lra).
  rewrite !Rplus_0_r in P. apply P; try lia; try assumption; try reflexivity; try discriminate; try (cbn; tauto); try (cbn; lia); try (intros; apply duo_unit); try (match goal with |- fits _ _ => fit end).
  intros a i Ha Hi. destruct i as [|i], a as [|[|a]]; (split; [fit|reflexivity]).
Qed.
Print Assumptions C178_room.
