(** Initial guesses for the spline coefficients (C128-C135). *)
From Coq Require Import String Reals List Arith Bool Lia Lra.
From Verif Require Import Spline_Model Spline_Spec Splop_Spec Guess_Model Guess_Spec
  Guess_Proofs3 Guess_Proofs4 Guess_Proofs5 Guess_Proofs6.
From Verif Require Geom_Model Geom_Spec Vehicle_Model.
Import ListNotations.
Local Open Scope R_scope.
Local Notation length := List.length.

(** a vehicle at (1, 2) that should go to (5, -1), and its heading *)
Definition at12 (k : nat) : R := nth k [1; 2; 1/2] 0.
Definition to51 (k : nat) : R := nth k [5; -1; -1] 0.
(** rooms beside each other, and a vehicle that goes from one to the other *)
Definition rooms2 : list (Geom_Model.rect * (R * R)) :=
  [(Geom_Model.mkRect 4 4 0, (2, 2)); (Geom_Model.mkRect 4 4 0, (5, 1))].
Definition to62 (k : nat) : R := nth k [6; 2] 0.
Definition driver : vehicle := Single Holonomic qbasis (Some 2%nat) at12 to62.
Definition no_vars : vars := fun _ _ => A1 [].
Definition lone : vehicle := Single Holonomic qbasis (Some 1%nat) at12 to51.
Lemma pi_large : 3 < PI.
Proof. pose proof PI2_3_2 as K. unfold PI2 in K. lra. Qed.

(* the guess for the position is the straight line from the state to the goal, passed from end to end without turning back *)
Theorem C128_straight : forall c d b s g, positions c d -> good_basis b -> (c = Quadrotor -> roomy b) ->
  exists a f, init_value (Single c b (Some 1%nat) s g) None = Ok (GList [a]) /\ sweep f /\ along b (columns_of a) d s g f.
Proof. exact guess_straight. Qed.
Example C128_straight_ex : exists a f, init_value (Single Holonomic qbasis (Some 1%nat) at12 to51) None = Ok (GList [a]) /\ sweep f /\
  forall x, 0 <= x <= 1 -> curve qbasis (nth 1 (columns_of a) []) 0 x = 2 - 3 * f x.
Proof.
  destruct (C128_straight Holonomic 2 qbasis at12 to51 pos_2 qbasis_good ltac:(discriminate)) as (a & f & E & S & _ & L).
  exists a, f. split; [exact E|]. split; [exact S|]. intros x X. rewrite (L 1%nat x ltac:(lia) X). cbn. ring. Qed.
Print Assumptions C128_straight.

(* HolonomicOrient: the position is guessed likewise, but the spline for the heading is zero whatever the state and the goal are *)
Theorem C128_orient_refuted : forall b n s g, good_basis b ->
  exists a, init_value (Single HolonomicOrient b n s g) None = Ok (GList [a]) /\
    along b (firstn 2 (columns_of a)) 2 s g (curve b (ramp b 0 1) 0) /\
    forall x, 0 <= x <= 1 -> curve b (nth 2 (columns_of a) []) 0 x = 0.
Proof. exact guess_orient. Qed.
Example C128_orient_refuted_ex : exists s g a, init_value (Single HolonomicOrient qbasis (Some 1%nat) s g) None = Ok (GList [a]) /\
  2 * atan (curve qbasis (nth 2 (columns_of a) []) 0 0) <> s 2%nat.
Proof.
  exists at12, to51. destruct (C128_orient_refuted qbasis (Some 1%nat) at12 to51 qbasis_good) as (a & E & _ & Z).
  exists a. split; [exact E|]. rewrite Z by lra. rewrite atan_0. cbn. lra. Qed.
Print Assumptions C128_orient_refuted.

(* Quadrotor: all derivatives of the guess are zero at both ends *)
Theorem C129_rests : forall b s g, good_basis b -> roomy b ->
  exists a, init_value (Single Quadrotor b (Some 1%nat) s g) None = Ok (GList [a]) /\
  forall k o, (k < 2)%nat -> (1 <= o <= degree b)%nat ->
    curve b (nth k (columns_of a) []) o 0 = 0 /\ curve b (nth k (columns_of a) []) o 1 = 0.
Proof. exact guess_rests. Qed.
Example C129_rests_ex : exists a, init_value (Single Quadrotor qbasis (Some 1%nat) at12 to51) None = Ok (GList [a]) /\
  curve qbasis (nth 1 (columns_of a) []) 2 1 = 0.
Proof.
  destruct (C129_rests qbasis at12 to51 qbasis_good ltac:(unfold roomy; cbn; lia)) as (a & E & K). exists a. split; [exact E|].
  apply (K 1%nat 2%nat); cbn; lia. Qed.
Print Assumptions C129_rests.

(* vehicles with a spline for the tangent of half an angle: no speed, and the angle goes from the state to the goal without turning back *)
Theorem C130_angle : forall c k i j b s g, angles c k i j -> good_basis b -> - PI < s i < PI -> - PI < g j < PI ->
  exists a, init_value (Single c b (Some 1%nat) s g) None = Ok (GList [a]) /\
    (forall x, 0 <= x <= 1 -> curve b (nth 0 (columns_of a) []) 0 x = 0) /\
    let angle x := 2 * atan (curve b (nth k (columns_of a) []) 0 x) in
    angle 0 = s i /\ angle 1 = g j /\
    (forall x y, 0 <= x -> x <= y -> y <= 1 ->
       (s i <= g j -> angle x <= angle y) /\ (g j <= s i -> angle y <= angle x)).
Proof. exact guess_angle. Qed.
Example C130_angle_ex : exists a, init_value (Single Dubins qbasis (Some 1%nat) at12 to51) None = Ok (GList [a]) /\
  2 * atan (curve qbasis (nth 1 (columns_of a) []) 0 1) = -1.
Proof.
  pose proof pi_large. destruct (C130_angle Dubins 1 2 2 qbasis at12 to51 ang_d qbasis_good) as (a & E & _ & _ & K & _);
    [cbn; lra|cbn; lra|]. exists a. split; [exact E|exact K]. Qed.
Print Assumptions C130_angle.

(* a trailer: its own column goes from its heading to the goal heading, or stays; the others are those of the vehicle that pulls it *)
Theorem C130_trailer : forall b n th thT lead cs, good_basis b -> - PI < th < PI -> (forall x, thT = Some x -> - PI < x < PI) ->
  (init_value lead None = Ok (GArr (rows b) cs) \/ init_value lead None = Ok (GList [A2 (rows b) cs])) ->
  exists col, init_value (Trailer b n th thT lead) None = Ok (GArr (rows b) (col :: cs)) /\ length col = rows b /\
    let angle t := 2 * atan (curve b col 0 t) in
    let goal := match thT with Some x => x | None => th end in
    angle 0 = th /\ angle 1 = goal /\
    forall t u, 0 <= t -> t <= u -> u <= 1 -> (th <= goal -> angle t <= angle u) /\ (goal <= th -> angle u <= angle t).
Proof. exact guess_trailer. Qed.
Example C130_trailer_ex : exists col cs, init_value (Trailer qbasis (Some 1%nat) 1 None (Single Dubins qbasis (Some 1%nat) at12 to51)) None
    = Ok (GArr (rows qbasis) (col :: cs)) /\ length cs = 2%nat /\ forall x, 0 <= x <= 1 -> 2 * atan (curve qbasis col 0 x) = 1.
Proof.
  pose proof pi_large. set (lead := Single Dubins qbasis (Some 1%nat) at12 to51).
  destruct (C130_trailer qbasis (Some 1%nat) 1 None lead _ qbasis_good ltac:(lra) ltac:(discriminate) (or_intror eq_refl))
    as (col & E & _ & A & B & M).
  exists col. eexists. split; [exact E|]. split; [reflexivity|]. intros x X.
  destruct (M 0 x) as [M1 _]; try lra. destruct (M x 1) as [M2 _]; try lra. Qed.
Print Assumptions C130_trailer.

(* the trailer and the vehicle that pulls it need bases of the same size *)
Theorem C130_sizes : forall b n th thT lead sub g, init_value (Trailer b n th thT lead) sub = Ok g -> sub = None /\ rows b = rows (v_basis lead).
Proof. exact trailer_sizes. Qed.
Example C130_sizes_ex : exists e, init_value (Trailer (mkB [0; 0; 1; 1] 1) (Some 1%nat) 1 None (Single Dubins qbasis (Some 1%nat) at12 to51)) None = Raise e.
Proof. eexists. reflexivity. Qed.
Print Assumptions C130_sizes.

(* several rooms: the guess for segment j stays in room j, the segments join, and they lead from the state to the goal *)
Theorem C131_rooms : forall n rooms vs m, (2 <= n)%nat -> length rooms = n -> Forall upright rooms ->
  (forall j, (S j < n)%nat -> overlap (nth j rooms room0) (nth (S j) rooms room0)) ->
  (forall v, In v vs -> exists b s g, v = Single Holonomic b (Some n) s g /\ good_basis b /\
     within (nth 0 rooms room0) (s 0%nat, s 1%nat) /\ within (nth (n - 1) rooms room0) (g 0%nat, g 1%nat)) ->
  exists m', reinitialize_frames n 0 rooms vs m = Ok m' /\
  forall i b s g, nth_error vs i = Some (Single Holonomic b (Some n) s g) ->
    let at_ j k x := curve b (nth k (columns_of (m' i j)) []) 0 x in
    (forall j x, (j < n)%nat -> 0 <= x <= 1 -> within (nth j rooms room0) (at_ j 0%nat x, at_ j 1%nat x)) /\
    (forall k, (k < 2)%nat -> at_ 0%nat k 0 = s k /\ at_ (n - 1)%nat k 1 = g k /\
       forall j, (S j < n)%nat -> at_ j k 1 = at_ (S j) k 0).
Proof. exact frames_spec. Qed.
Example C131_rooms_ex : exists m, reinitialize_frames 2 0 rooms2 [driver] no_vars = Ok m /\
  curve qbasis (nth 0 (columns_of (m 0%nat 1%nat)) []) 0 1 = 6 /\
  forall x, 0 <= x <= 1 -> within (nth 0 rooms2 room0)
    (curve qbasis (nth 0 (columns_of (m 0%nat 0%nat)) []) 0 x, curve qbasis (nth 1 (columns_of (m 0%nat 0%nat)) []) 0 x).
Proof.
  destruct (C131_rooms 2 rooms2 [driver] no_vars) as (m & M & K); try reflexivity.
  - repeat constructor; cbn; lra.
  - intros [|j] J; [|lia]. exists (7/2, 2). cbn. unfold within, Geom_Spec.in_box. cbn. split; split; unfold Rabs; destruct Rcase_abs; lra.
  - intros v [<-|[]]. exists qbasis, at12, to62. split; [reflexivity|]. split; [exact qbasis_good|].
    unfold within, Geom_Spec.in_box. cbn. split; split; unfold Rabs; destruct Rcase_abs; lra.
  - exists m. split; [exact M|]. destruct (K 0%nat qbasis at12 to62 eq_refl) as [A B]. split.
    + exact (proj1 (proj2 (B 0%nat ltac:(lia)))).
    + intros x X. exact (A 0%nat x ltac:(lia) X). Qed.
Print Assumptions C131_rooms.

(* the other classes of vehicles raise when there are several rooms *)
Theorem C131_holonomic_only : forall n rooms vs i m m', reinitialize_frames n i rooms vs m = Ok m' ->
  forall v, In v vs -> exists b k s g, v = Single Holonomic b (Some k) s g.
Proof. exact frames_only_holonomic. Qed.
Example C131_holonomic_only_ex : exists e, reinitialize_frames 2 0 rooms2 [Single Dubins qbasis (Some 2%nat) at12 to62] no_vars = Raise e.
Proof.
  destruct (reinitialize_frames 2 0 rooms2 [Single Dubins qbasis (Some 2%nat) at12 to62] no_vars) as [m|e] eqn:E; [|exists e; reflexivity].
  destruct (C131_holonomic_only _ _ _ _ _ _ E _ (or_introl eq_refl)) as (b & k & s & g & X). discriminate. Qed.
Print Assumptions C131_holonomic_only.

(* reinitialize: every vehicle's guess ends up in the variables of its own segments, everything else stays *)
Theorem C132_reinitialize : forall vs m, (forall v, In v vs -> exists g n, guessed v g n) ->
  exists m', reinitialize 0 vs m = Ok m' /\
    forall i v, nth_error vs i = Some v -> exists g n, guessed v g n /\
      forall j, ((j < n)%nat -> item g j = Some (m' i j)) /\ ((n <= j)%nat -> m' i j = m i j).
Proof. exact reinit_spec. Qed.
Example C132_reinitialize_ex : exists m, reinitialize 0 [lone; lone] no_vars = Ok m /\ m 1%nat 1%nat = A1 [] /\
  exists g, init_value lone None = Ok g /\ item g 0 = Some (m 1%nat 0%nat).
Proof.
  destruct (C132_reinitialize [lone; lone] no_vars) as (m & M & K).
  - intros v H. assert (v = lone) as -> by (destruct H as [<-|[<-|[]]]; reflexivity).
    eexists. exists 1%nat. split; [reflexivity|]. split; [reflexivity|]. intros [|j] J; [discriminate|lia].
  - exists m. split; [exact M|]. destruct (K 1%nat lone eq_refl) as (g & n & (G & N & _) & A). injection N as <-. split.
    + apply (A 1%nat). lia.
    + exists g. split; [exact G|]. apply (A 0%nat). lia. Qed.
Print Assumptions C132_reinitialize.

(* it raises as soon as one vehicle has no guess for one of its segments *)
Theorem C132_needs_guess : forall vs i m m', reinitialize i vs m = Ok m' -> forall v, In v vs -> exists g n, guessed v g n.
Proof. exact reinit_raises. Qed.
Example C132_needs_guess_ex : exists e, reinitialize 0 [lone; Single Tool qbasis (Some 1%nat) at12 to51] no_vars = Raise e.
Proof.
  destruct (reinitialize 0 [lone; Single Tool qbasis (Some 1%nat) at12 to51] no_vars) as [m|e] eqn:E; [|exists e; reflexivity].
  destruct (C132_needs_guess _ _ _ _ E _ (or_intror (or_introl eq_refl))) as (g & n & X & _). discriminate. Qed.
Print Assumptions C132_needs_guess.

(* so every vehicle has one segment at most *)
Theorem C132_one_segment : forall vs i m m', reinitialize i vs m = Ok m' -> forall v, In v vs -> exists n, v_seg v = Some n /\ (n <= 1)%nat.
Proof. exact reinit_segments. Qed.
Example C132_one_segment_ex : exists e, reinitialize 0 [Single Dubins qbasis (Some 2%nat) at12 to51] no_vars = Raise e.
Proof.
  destruct (reinitialize 0 [Single Dubins qbasis (Some 2%nat) at12 to51] no_vars) as [m|e] eqn:E; [|exists e; reflexivity].
  destruct (C132_one_segment _ _ _ _ E _ (or_introl eq_refl)) as (n & N & L). injection N as <-. lia. Qed.
Print Assumptions C132_one_segment.

(* and the guess has the shape of the variables *)
Theorem C132_shape : forall c b n s g sub l, init_value (Single c b n s g) sub = Ok (GList l) ->
  Forall (shaped (rows b) (n_spl c)) l /\ (c <> Holonomic \/ n = Some 1%nat -> length l = 1%nat).
Proof. exact guess_shape. Qed.
Example C132_shape_ex : exists a, init_value (Single Quadrotor3D qbasis (Some 1%nat) at12 to51) None = Ok (GList [a]) /\ shaped 6 3 a.
Proof.
  eexists. split; [reflexivity|]. destruct (C132_shape Quadrotor3D qbasis (Some 1%nat) at12 to51 None _ eq_refl) as [F _].
  exact (Forall_inv F). Qed.
Print Assumptions C132_shape.

(* also for a vehicle with any number of trailers *)
Theorem C132_fits : forall v sub g k a, init_value v sub = Ok g -> item g k = Some a -> shaped (rows (v_basis v)) (v_spl v) a.
Proof. exact guess_fits. Qed.
Example C132_fits_ex : exists n cs, init_value (Trailer qbasis (Some 1%nat) 1 None (Single Dubins qbasis (Some 1%nat) at12 to51)) None = Ok (GArr n cs) /\
  shaped 6 3 (A2 n cs).
Proof.
  eexists. eexists. assert (E : init_value (Trailer qbasis (Some 1%nat) 1 None (Single Dubins qbasis (Some 1%nat) at12 to51)) None = Ok (GArr _ _)) by reflexivity.
  split; [exact E|]. exact (C132_fits _ _ _ 0%nat _ E eq_refl). Qed.
Print Assumptions C132_fits.

(* the class Tool has no guess, nor has a trailer behind it *)
Theorem C132_tool : forall v sub, head v = Tool -> exists e, init_value v sub = Raise e.
Proof. exact tool_raises. Qed.
Example C132_tool_ex : exists e, init_value (Trailer qbasis (Some 1%nat) 1 None (Single Tool qbasis (Some 1%nat) at12 to51)) None = Raise e.
Proof. apply C132_tool. reflexivity. Qed.
Print Assumptions C132_tool.

(* reset_init_guess with a guess puts it into the variables, and changes nothing else *)
Theorem C133_given : forall vs l m,
  (forall v, In v vs -> v_seg v = Some (length l) /\ Forall (fun a => exists r, has_shape r (v_spl v) a = true) l) ->
  exists m', reset_init_guess (Some l) vs m = Ok m' /\
    (forall i j a, (i < length vs)%nat -> nth_error l j = Some a -> m' i j = a) /\
    (forall i j, (length vs <= i \/ length l <= j)%nat -> m' i j = m i j).
Proof. exact reset_given. Qed.
Example C133_given_ex : exists m, reset_init_guess (Some [zeros qbasis 2]) [lone] no_vars = Ok m /\ m 0%nat 0%nat = zeros qbasis 2 /\ m 0%nat 1%nat = A1 [].
Proof.
  destruct (C133_given [lone] [zeros qbasis 2] no_vars) as (m & M & A & B).
  - intros v [<-|[]]. split; [reflexivity|]. constructor; [exists 6%nat; reflexivity|constructor].
  - exists m. split; [exact M|]. split; [apply (A 0%nat 0%nat); [cbn; lia|reflexivity]|apply (B 0%nat 1%nat); cbn; lia]. Qed.
Print Assumptions C133_given.

(* all vehicles get the same guess *)
Theorem C133_shared : forall vs l m m', reset_init_guess (Some l) vs m = Ok m' ->
  forall i i' j, (i < length vs)%nat -> (i' < length vs)%nat -> (j < length l)%nat -> m' i j = m' i' j.
Proof. exact reset_shared. Qed.
Example C133_shared_ex : exists m, reset_init_guess (Some [zeros qbasis 2]) [lone; Single Dubins qbasis (Some 1%nat) to51 at12] no_vars = Ok m /\
  m 0%nat 0%nat = m 1%nat 0%nat.
Proof.
  eexists. assert (E : reset_init_guess (Some [zeros qbasis 2]) [lone; Single Dubins qbasis (Some 1%nat) to51 at12] no_vars = Ok _) by reflexivity.
  split; [exact E|]. apply (C133_shared _ _ _ _ E); cbn; lia. Qed.
Print Assumptions C133_shared.

(* a guess that does not fit every vehicle is refused *)
Theorem C133_fitting : forall vs l m m', reset_init_guess (Some l) vs m = Ok m' ->
  forall v, In v vs -> v_seg v = Some (length l) /\ Forall (fun a => exists r, has_shape r (v_spl v) a = true) l.
Proof. exact reset_given_back. Qed.
Example C133_fitting_ex : exists e, reset_init_guess (Some [zeros qbasis 2]) [lone; Single Holonomic3D qbasis (Some 1%nat) at12 to51] no_vars = Raise e.
Proof.
  destruct (reset_init_guess _ _ _) as [m|e] eqn:E; [|exists e; reflexivity].
  destruct (C133_fitting _ _ _ _ E _ (or_intror (or_introl eq_refl))) as [_ F]. destruct (Forall_inv F) as (r & X). cbn in X.
  destruct (6 =? r)%nat in X; destruct r as [|[|[|[|[|[|[|r]]]]]]]; discriminate. Qed.
Print Assumptions C133_fitting.

(* without a guess it always raises *)
Theorem C133_reset_refuted : forall vs m, vs <> [] -> exists e, reset_init_guess None vs m = Raise e.
Proof. exact reset_raises. Qed.
Example C133_reset_refuted_ex : exists e, reset_init_guess None [lone] no_vars = Raise e.
Proof. apply C133_reset_refuted. discriminate. Qed.
Print Assumptions C133_reset_refuted.

(* so an update in which the solver runs out of time raises, except at time zero; in all other cases the answer of the solver is kept *)
Theorem C133_timeout : forall vs m, vs <> [] ->
  (exists e, after_solve "Maximum_CpuTime_Exceeded" false vs m = Raise e) /\
  after_solve "Maximum_CpuTime_Exceeded" true vs m = Ok m /\
  forall s first, s <> "Maximum_CpuTime_Exceeded"%string -> after_solve s first vs m = Ok m.
Proof. exact timeout_raises. Qed.
Example C133_timeout_ex : exists e, after_solve "Maximum_CpuTime_Exceeded" false [lone] no_vars = Raise e.
Proof. apply C133_timeout. discriminate. Qed.
Print Assumptions C133_timeout.

(* set_init_spline_values takes arrays of the right shape only, and the next definition of the variables starts from them, and only that one *)
Theorem C134_used : forall b c values n, length values = n ->
  ((exists l, set_init_spline_values b c values n = (l, None)) <-> Forall (fun a => has_shape (rows b) c a = true) values) /\
  (Forall (fun a => has_shape (rows b) c a = true) values ->
     let l := fst (set_init_spline_values b c values n) in
     define_splines b c (Some l) n = (Ok values, None)).
Proof. exact guess_used. Qed.
Example C134_used_ex : define_splines qbasis 2 (Some (fst (set_init_spline_values qbasis 2 [A2 6 (lines qbasis 2 at12 to51)] 1))) 1
  = (Ok [A2 6 (lines qbasis 2 at12 to51)], None).
Proof. apply C134_used; [reflexivity|]. constructor; [reflexivity|constructor]. Qed.
Print Assumptions C134_used.

(* when one array is refused, the ones before it are kept and the next definition uses them, with zeros for the others *)
Theorem C134_refused : forall b c values n l e, set_init_spline_values b c values n = (l, Some e) ->
  exists k, (k < n)%nat /\ (k <= length values)%nat /\ Forall (fun a => has_shape (rows b) c a = true) (firstn k values) /\
    match nth_error values k with None => e = "IndexError"%string | Some a => has_shape (rows b) c a = false /\ e = "ValueError"%string end /\
    define_splines b c (Some l) n = (Ok (firstn k values ++ repeat (zeros b c) (n - k)), None).
Proof. exact guess_refused. Qed.
Example C134_refused_ex : exists l, set_init_spline_values qbasis 2 [A2 6 (lines qbasis 2 at12 to51); A1 []] 2 = (l, Some "ValueError"%string) /\
  define_splines qbasis 2 (Some l) 2 = (Ok [A2 6 (lines qbasis 2 at12 to51); zeros qbasis 2], None).
Proof.
  eexists. assert (E : set_init_spline_values qbasis 2 [A2 6 (lines qbasis 2 at12 to51); A1 []] 2 = (_, Some "ValueError"%string)) by reflexivity.
  split; [exact E|]. destruct (C134_refused _ _ _ _ _ _ E) as (k & K1 & _ & _ & X & D).
  destruct k as [|[|k]]; [cbn in X; destruct X; discriminate|exact D|lia]. Qed.
Print Assumptions C134_refused.

(* without a guess that was set the variables start at zero *)
Theorem C134_default : forall b c n, exists l, define_splines b c None n = (Ok l, None) /\ length l = n /\
  forall a, In a l -> shaped (rows b) c a /\ forall v x, In v (columns_of a) -> In x v -> x = 0.
Proof. exact guess_zero. Qed.
Example C134_default_ex : exists l, define_splines qbasis 2 None 2 = (Ok l, None) /\ length l = 2%nat.
Proof. destruct (C134_default qbasis 2 2) as (l & E & L & _). exists l. auto. Qed.
Print Assumptions C134_default.

(* so the guess of the vehicle itself is not used when the variables are defined *)
Theorem C134_default_refuted : exists b s g a, good_basis b /\ init_value (Single Holonomic b (Some 1%nat) s g) None = Ok (GList [a]) /\
  fst (define_splines b 2 None 1) <> Ok [a].
Proof. exact guess_default_refuted. Qed.
Print Assumptions C134_default_refuted.

(* AGV, Bicycle, Dubins: with a goal heading further than the tolerance outside (-pi, pi) the vehicle never counts as arrived, whatever its splines are *)
Theorem C135_heading_refuted : forall tol x y xT yT thT tg input, 0 <= tol < 1 -> PI + tol <= Rabs thT ->
  Vehicle_Model.arrived tol [x - xT; y - yT; 2 * atan tg - thT] input = false.
Proof. exact heading_unreachable. Qed.
Example C135_heading_refuted_ex : Vehicle_Model.arrived (1/100) [0 - 0; 0 - 0; 2 * atan (half_tan (-1)) - (-1 + 2 * PI)] [0; 0] = false.
Proof.
  pose proof pi_large. apply C135_heading_refuted; [lra|]. rewrite Rabs_pos_eq; lra. Qed.
Print Assumptions C135_heading_refuted.

(* the same for the goal heading of a trailer *)
Theorem C135_trailer_refuted : forall tol tg thT lead, 0 <= tol -> PI + tol <= Rabs thT ->
  Vehicle_Model.arrived_trailer tol (2 * atan tg) (Some thT) lead = false.
Proof. exact trailer_unreachable. Qed.
Example C135_trailer_refuted_ex : Vehicle_Model.arrived_trailer (1/100) (2 * atan (half_tan (-1))) (Some (-1 + 2 * PI)) true = false.
Proof.
  pose proof pi_large. apply C135_trailer_refuted; [lra|]. rewrite Rabs_pos_eq; lra. Qed.
Print Assumptions C135_trailer_refuted.

(* although the constraints and the guess are those of the equivalent goal heading within (-pi, pi) *)
Theorem C135_period : forall x, cos (x / 2) <> 0 -> half_tan (x + 2 * PI) = half_tan x.
Proof. exact half_tan_period. Qed.
Example C135_period_ex : half_tan (0 + 2 * PI) = half_tan 0.
Proof. apply C135_period. replace (0 / 2) with 0 by field. rewrite cos_0. lra. Qed.
Print Assumptions C135_period.
