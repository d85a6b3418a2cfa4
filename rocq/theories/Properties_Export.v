(** Generated C++ code: vectors and spline shift (C55), constraint bounds
    (C86), shared variables of distributed problems (C87). *)
From Coq Require Import Reals List Arith Bool String Lra Lia.
From Verif Require Import Export_Model Export_Spec Export_Proofs Export_Proofs2 Export_Proofs3.
Import ListNotations.
Local Open Scope R_scope.
Local Notation length := List.length.

(** time, a state and a matrix of two splines *)
Definition decls : list decl :=
  [mkD "p2p0" "t" 1 1 None None; mkD "vehicle0" "state0" 2 1 None None; mkD "vehicle0" "splines_seg0" 2 2 None None].
Definition filled : dict := fun l n =>
  if (String.eqb l "p2p0" && String.eqb n "t")%bool then Some [7]
  else if (String.eqb l "vehicle0" && String.eqb n "state0")%bool then Some [1; 2]
  else if (String.eqb l "vehicle0" && String.eqb n "splines_seg0")%bool then Some [3; 4; 5; 6] else None.

Lemma decls_plain : Forall plain decls.
Proof.
  constructor; [right; split; reflexivity|]. constructor; [left; simpl; lia|]. constructor; [left; simpl; lia|constructor].
Qed.
Lemma decls_present : Forall (present filled) decls.
Proof.
  constructor; [exists [7]; split; [reflexivity|cbn; lia]|].
  constructor; [exists [1; 2]; split; [reflexivity|cbn; lia]|].
  constructor; [exists [3; 4; 5; 6]; split; [reflexivity|cbn; lia]|constructor].
Qed.
Definition cols : list decl := [mkD "vehicle0" "x" 2 1 None None; mkD "vehicle0" "splines_seg0" 2 2 None None].
Definition filled2 : dict := fun l n =>
  if (String.eqb l "vehicle0" && String.eqb n "x")%bool then Some [1; 2]
  else if (String.eqb l "vehicle0" && String.eqb n "splines_seg0")%bool then Some [3; 4; 5; 6] else None.
Lemma cols_rows : Forall (fun d => 1 < d_rows d)%nat cols.
Proof. constructor; [simpl; lia|]. constructor; [simpl; lia|constructor]. Qed.
Lemma cols_keys : NoDup (map key cols).
Proof. constructor; [intros [E|[]]; discriminate|]. constructor; [intros []|constructor]. Qed.

(** one ordinary and one obstacle constraint *)
Definition two_cstr : list cstr :=
  [mkC [Fin 0] [Fin 1] (Some (fun t => if Rle_dec 5 t then true else false)) None; mkC [NegInf; NegInf] [Fin 0; Fin 3] None (Some 0%nat)].
Lemma two_sized : Forall (well_sized 1) two_cstr.
Proof.
  constructor; [split; [reflexivity|intros k E; discriminate]|].
  constructor; [split; [reflexivity|intros k E; injection E as <-; lia]|constructor].
Qed.

(* the generated code writes all declared parameters one after the other, nothing is left over *)
Theorem C55_parameters : forall ds m v,
  Forall plain ds -> Forall (present m) ds -> length v = total ds ->
  getParameterVector ds m v = Some (List.concat (map (value m) ds)).
Proof. exact parameter_vector. Qed.
Example C55_parameters_ex : getParameterVector decls filled (repeat 0 7) = Some [7; 1; 2; 3; 4; 5; 6].
Proof. rewrite (C55_parameters decls filled (repeat 0 7) decls_plain decls_present eq_refl). reflexivity. Qed.
Print Assumptions C55_parameters.

(* a parameter stands after all the parameters declared before it *)
Theorem C55_position : forall pre d post m v w,
  Forall plain (pre ++ d :: post) -> Forall (present m) (pre ++ d :: post) ->
  length v = total (pre ++ d :: post) ->
  getParameterVector (pre ++ d :: post) m v = Some w ->
  length w = length v /\ firstn (d_size d) (skipn (total pre) w) = value m d.
Proof. exact parameter_position. Qed.
Example C55_position_ex : exists w, getParameterVector decls filled (repeat 0 7) = Some w /\ firstn 2 (skipn 1 w) = [1; 2].
Proof.
  pose proof (C55_parameters decls filled (repeat 0 7) decls_plain decls_present eq_refl) as E.
  eexists. split; [exact E|].
  destruct (C55_position [mkD "p2p0" "t" 1 1 None None] (mkD "vehicle0" "state0" 2 1 None None)
    [mkD "vehicle0" "splines_seg0" 2 2 None None] filled (repeat 0 7) _ decls_plain decls_present eq_refl E) as [_ P].
  exact P.
Qed.
Print Assumptions C55_position.

(* of a row vector only the first entry is written *)
Theorem C55_row_parameter_refuted : exists ds m v w,
  Forall (present m) ds /\ length v = total ds /\
  getParameterVector ds m v = Some w /\ w <> List.concat (map (value m) ds).
Proof. exact row_parameter_refuted. Qed.
Print Assumptions C55_row_parameter_refuted.

(* variables: entries of the dictionary are written, the others keep their old value *)
Theorem C55_variables : forall ds m v,
  Forall plain ds -> (forall d x, In d ds -> entry m d = Some x -> (d_size d <= length x)%nat) ->
  length v = total ds ->
  getVariableVector ds m v = Some (merged m ds v).
Proof. exact variable_vector. Qed.
Example C55_variables_ex : getVariableVector cols (fun l n => if (String.eqb n "x")%bool then Some [1; 2] else None) [9; 9; 8; 8; 8; 8]
  = Some [1; 2; 8; 8; 8; 8].
Proof.
  rewrite (C55_variables cols _ [9; 9; 8; 8; 8; 8]); [reflexivity| |intros d x [<-|[<-|[]]] E; [injection E as <-; cbn; lia|discriminate]|reflexivity].
  constructor; [left; simpl; lia|]. constructor; [left; simpl; lia|constructor].
Qed.
Print Assumptions C55_variables.

(* the initial guess only replaces the splines of the vehicle *)
Theorem C55_initialised : forall pre d post cols v,
  Forall plain (pre ++ d :: post) -> length v = total (pre ++ d :: post) ->
  d_name d = "splines_seg0"%string ->
  (forall e, In e (pre ++ post) -> key e <> key d) ->
  length (List.concat cols) = d_size d ->
  initVariables (pre ++ d :: post) (d_label d) cols v
  = Some (firstn (total pre) v ++ List.concat cols ++ skipn (total pre + d_size d) v).
Proof. exact init_variables. Qed.
Example C55_initialised_ex : initVariables cols "vehicle0" [[1; 2]; [3; 4]] [9; 9; 8; 8; 8; 8] = Some [9; 9; 1; 2; 3; 4].
Proof.
  pose proof (C55_initialised [mkD "vehicle0" "x" 2 1 None None] (mkD "vehicle0" "splines_seg0" 2 2 None None) []
    [[1; 2]; [3; 4]] [9; 9; 8; 8; 8; 8]) as E. cbn [app] in E. etransitivity; [apply E; try reflexivity|reflexivity].
  - constructor; [left; simpl; lia|]. constructor; [left; simpl; lia|constructor].
  - intros e [<-|[]]. discriminate.
Qed.
Print Assumptions C55_initialised.

(* the solver result is read back from the positions where it was written *)
Theorem C55_read_back : forall ds v m,
  Forall (fun d => 1 < d_rows d)%nat ds -> length v = total ds -> NoDup (map key ds) ->
  exists m', getVariableDict ds v m = Some m' /\
    (forall pre d post, ds = pre ++ d :: post -> entry m' d = Some (firstn (d_size d) (skipn (total pre) v))) /\
    (forall l n, ~ In (l, n) (map key ds) -> m' l n = m l n).
Proof. exact variable_dict. Qed.
Example C55_read_back_ex : exists m, getVariableDict cols [1; 2; 3; 4; 5; 6] (fun _ _ => None) = Some m /\
  m "vehicle0"%string "splines_seg0"%string = Some [3; 4; 5; 6].
Proof.
  destruct (C55_read_back cols [1; 2; 3; 4; 5; 6] (fun _ _ => None) cols_rows eq_refl cols_keys) as (m & E & V & _).
  exists m. split; [exact E|]. exact (V [mkD "vehicle0" "x" 2 1 None None] _ [] eq_refl).
Qed.
Print Assumptions C55_read_back.

(* writing and reading back gives the same values *)
Theorem C55_round_trip : forall ds m v,
  Forall (fun d => 1 < d_rows d)%nat ds -> Forall (present m) ds -> length v = total ds -> NoDup (map key ds) ->
  exists w m', getVariableVector ds m v = Some w /\ getVariableDict ds w (fun _ _ => None) = Some m' /\
    forall d, In d ds -> entry m' d = Some (value m d).
Proof. exact round_trip. Qed.
Example C55_round_trip_ex : exists w m, getVariableVector cols filled2 (repeat 0 6) = Some w /\
  getVariableDict cols w (fun _ _ => None) = Some m /\ m "vehicle0"%string "x"%string = Some [1; 2].
Proof.
  assert (P : Forall (present filled2) cols).
  { constructor; [exists [1; 2]; split; [reflexivity|cbn; lia]|].
    constructor; [exists [3; 4; 5; 6]; split; [reflexivity|cbn; lia]|constructor]. }
  destruct (C55_round_trip cols filled2 (repeat 0 6) cols_rows P eq_refl cols_keys) as (w & m & E & F & G).
  exists w, m. split; [exact E|]. split; [exact F|]. exact (G (mkD "vehicle0" "x" 2 1 None None) (or_introl eq_refl)).
Qed.
Print Assumptions C55_round_trip.

(* the columns of a matrix of splines are found again *)
Theorem C55_columns : forall n (cs : list vec), Forall (fun c => length c = n) cs ->
  columns_of n (length cs) (List.concat cs) = cs.
Proof. exact columns_back. Qed.
Example C55_columns_ex : columns_of 2 2 (List.concat [[1; 2]; [3; 4]]) = [[1; 2]; [3; 4]].
Proof. apply (C55_columns 2 [[1; 2]; [3; 4]]). repeat constructor. Qed.
Print Assumptions C55_columns.

(* any variable with one row makes the generated code that reads the result back invalid *)
Theorem C55_scalar_variable_refuted : forall ds d v m, In d ds -> (d_rows d <= 1)%nat -> length v = total ds ->
  getVariableDict ds v m = None.
Proof. exact scalar_variable_refuted. Qed.
Example C55_scalar_variable_refuted_ex : getVariableDict [mkD "p2p0" "T" 1 1 None None] [10] (fun _ _ => None) = None.
Proof. apply (C55_scalar_variable_refuted _ (mkD "p2p0" "T" 1 1 None None)); [left; reflexivity|cbn; lia|reflexivity]. Qed.
Print Assumptions C55_scalar_variable_refuted.

(* with single columns before every spline, the generated shift multiplies every column of every spline with its own matrix and leaves the rest alone *)
Theorem C55_shift : forall ds len_veh v,
  Forall good_spline ds -> one_matrix ds -> columns_before ds -> length v = total ds ->
  transformSplines ds len_veh v = Some (shifted ds v).
Proof. exact transform_right. Qed.
Example C55_shift_ex : transformSplines [plane2; veh2] 2 [1; 2; 3; 4; 5; 6] = Some [2; 1; 4; 3; 6; 5].
Proof.
  rewrite (C55_shift [plane2; veh2] 2 [1; 2; 3; 4; 5; 6]).
  - f_equal. cbn. repeat match goal with |- _ :: _ = _ :: _ => f_equal end; ring.
  - constructor; [|constructor; [|constructor]]; intros n E; injection E as <-; (split; [reflexivity|]);
      exists swap2; (split; [reflexivity|]); (split; [reflexivity|]); repeat constructor.
  - intros d e [<-|[<-|[]]] [<-|[<-|[]]] _ _ _; reflexivity.
  - intros pre d post E _. destruct pre as [|x [|y [|]]]; cbn [app] in E.
    + constructor.
    + injection E as <- _. constructor; [reflexivity|constructor].
    + injection E as <- <- E. destruct post; discriminate.
    + injection E as <- <- E. discriminate.
  - reflexivity.
Qed.
Print Assumptions C55_shift.

(* the shift of a spline is emitted for the position that counts the rows declared before it *)
Theorem C55_shift_position : forall pre d post n, is_spline d ->
  In (TShift (d_cols d) (d_rows d) (rows_before pre) (d_name d)) (gen_shift 0 n (pre ++ d :: post)).
Proof. exact emitted_position. Qed.
Example C55_shift_position_ex : In (TShift 1 2 2 "b") (gen_shift 0 2 [veh2; plane2]).
Proof. apply (C55_shift_position [veh2] plane2 [] 2). discriminate. Qed.
Print Assumptions C55_shift_position.

(* this is the position of the spline exactly when everything before it is a single column *)
Theorem C55_position_iff : forall pre, Forall (fun e => 0 < d_rows e /\ 0 < d_cols e)%nat pre ->
  rows_before pre = total pre <-> Forall (fun e => d_cols e = 1%nat) pre.
Proof. exact position_right. Qed.
Example C55_position_iff_ex : rows_before [veh2] <> total [veh2].
Proof.
  intro E. assert (F : Forall (fun e => 0 < d_rows e /\ 0 < d_cols e)%nat [veh2]) by (constructor; [simpl; lia|constructor]).
  apply (proj1 (C55_position_iff [veh2] F)) in E. inversion E; discriminate.
Qed.
Print Assumptions C55_position_iff.

(* two position splines before a hyperplane: the second is shifted twice, the hyperplane not at all *)
Theorem C55_two_columns_refuted : exists ds v w,
  Forall good_spline ds /\ one_matrix ds /\ length v = total ds /\
  transformSplines ds 2 v = Some w /\ w <> shifted ds v /\
  shifted ds v = [2; 1; 4; 3; 6; 5] /\ w = [2; 1; 3; 4; 5; 6].
Proof. exact two_columns_refuted. Qed.
Print Assumptions C55_two_columns_refuted.

(* splines with one name in two children: one matrix is used for both *)
Theorem C55_shared_name_refuted : exists ds v w,
  Forall good_spline ds /\ columns_before ds /\ length v = total ds /\
  transformSplines ds 2 v = Some w /\ w <> shifted ds v.
Proof. exact shared_name_refuted. Qed.
Print Assumptions C55_shared_name_refuted.

(* after any history of updates the bounds are those of the present time and the present flags *)
Theorem C86_history : forall n cs h t av,
  Forall (well_sized n) cs -> Forall (fun p => n <= length (snd p))%nat h -> (n <= length av)%nat ->
  updates n cs (h ++ [(t, av)]) (lbg_def cs, ubg_def cs) = Some (wanted_all t av cs).
Proof. exact bounds_history. Qed.
Example C86_history_ex : updates 1 two_cstr [(6, [false]); (1, [true])] (lbg_def two_cstr, ubg_def two_cstr)
  = Some ([Fin 0; NegInf; NegInf], [Fin 1; Fin 0; Fin 3]).
Proof.
  change [(6, [false]); (1, [true])] with ([(6, [false])] ++ [(1, [true])]).
  rewrite (C86_history 1 two_cstr [(6, [false])] 1 [true] two_sized ltac:(constructor; [simpl; lia|constructor]) ltac:(simpl; lia)).
  unfold wanted_all, two_cstr, wanted, shut. cbn [map c_obst c_shut c_lb c_ub fst snd nth List.concat app].
  destruct (Rle_dec 5 1); [lra|]. reflexivity.
Qed.
Example C86_history_ex2 : updates 1 two_cstr [(6, [false])] (lbg_def two_cstr, ubg_def two_cstr)
  = Some ([NegInf; NegInf; NegInf], [PosInf; PosInf; PosInf]).
Proof.
  change [(6, [false])] with (@nil (R * list bool) ++ [(6, [false])]).
  rewrite (C86_history 1 two_cstr [] 6 [false] two_sized ltac:(constructor) ltac:(simpl; lia)).
  unfold wanted_all, two_cstr, wanted, shut. cbn [map c_obst c_shut c_lb c_ub fst snd nth List.concat app].
  destruct (Rle_dec 5 6); [|lra]. reflexivity.
Qed.
Print Assumptions C86_history.

(* with all obstacles avoided and no obstacle constraint with a shutdown condition, these are the bounds of the Python problem *)
Theorem C86_python : forall n cs h t av,
  Forall (well_sized n) cs -> Forall (fun p => n <= length (snd p))%nat h -> (n <= length av)%nat ->
  Forall (fun a => a = true) av -> Forall (fun c => c_obst c <> None -> c_shut c = None) cs ->
  updates n cs (h ++ [(t, av)]) (lbg_def cs, ubg_def cs) = Some (py_update_bounds cs t).
Proof. exact bounds_python. Qed.
Example C86_python_ex : updates 1 two_cstr [(6, [true])] (lbg_def two_cstr, ubg_def two_cstr) = Some (py_update_bounds two_cstr 6).
Proof.
  apply (C86_python 1 two_cstr [] 6 [true] two_sized); [constructor|simpl; lia|constructor; [reflexivity|constructor]|].
  constructor; [intro H; elim H; reflexivity|]. constructor; [reflexivity|constructor].
Qed.
Print Assumptions C86_python.

(* the avoid flag of an obstacle cancels the shutdown condition of its constraint *)
Theorem C86_obstacle_shutdown_refuted : exists n cs t av b,
  Forall (well_sized n) cs /\ (n <= length av)%nat /\ Forall (fun a => a = true) av /\
  updates n cs [(t, av)] (lbg_def cs, ubg_def cs) = Some b /\ b <> py_update_bounds cs t.
Proof. exact obstacle_shutdown_refuted. Qed.
Print Assumptions C86_obstacle_shutdown_refuted.

(* obstacle parameters are the motion with constant acceleration over one update time *)
Theorem C86_obstacle_predicted : forall u p0 p1 v0 v1 a0 a1,
  predict2 u (mkO [p0; p1] [v0; v1] [a0; a1])
  = Some ([p0 + u * v0 + u ^ 2 / 2 * a0; p1 + u * v1 + u ^ 2 / 2 * a1], [v0 + u * a0; v1 + u * a1], [a0; a1]).
Proof. exact obstacle_predicted. Qed.
Example C86_obstacle_predicted_ex : predict2 2 (mkO [1; 0] [1; 3] [2; 0]) = Some ([7; 6], [5; 3], [2; 0]).
Proof. rewrite C86_obstacle_predicted. repeat f_equal; field. Qed.
Print Assumptions C86_obstacle_predicted.

(* the obstacle with a label is taken from the vector at its number among the obstacles *)
Theorem C86_obstacle_numbered : forall labels l, NoDup labels -> In l labels -> contains "obstacle" l = true ->
  exists pre post, labels = pre ++ l :: post /\
    obstacle_index labels 0 l = Some (length (filter (contains "obstacle") pre)).
Proof. exact obstacle_numbered. Qed.
Example C86_obstacle_numbered_ex : obstacle_index ["p2p0"; "obstacle3"; "vehicle0"; "obstacle5"]%string 0 "obstacle5" = Some 1%nat.
Proof.
  destruct (C86_obstacle_numbered ["p2p0"; "obstacle3"; "vehicle0"; "obstacle5"]%string "obstacle5"%string) as (pre & post & E & I).
  - repeat constructor; simpl; intuition discriminate.
  - simpl. auto.
  - reflexivity.
  - reflexivity.
Qed.
Print Assumptions C86_obstacle_numbered.

(* the shared vector collects the shared coefficients in order *)
Theorem C87_retrieved : forall qs m v, Forall (shared_ok m) qs -> length v = shared_total qs ->
  retrieve_shared m 0 qs v = Some (List.concat (map (shared_value m) qs)).
Proof. exact shared_retrieved. Qed.
Example C87_retrieved_ex : retrieve_shared filled2 0 [mkSh "vehicle0" "splines_seg0" [2; 3]%nat None []; mkSh "vehicle0" "x" [0]%nat None []] [0; 0; 0]
  = Some [5; 6; 1].
Proof.
  rewrite (C87_retrieved _ filled2 [0; 0; 0]); [reflexivity| |reflexivity].
  constructor; [exists [3; 4; 5; 6]; split; [reflexivity|constructor; [simpl; lia|constructor; [simpl; lia|constructor]]]|].
  constructor; [exists [1; 2]; split; [reflexivity|constructor; [simpl; lia|constructor]]|constructor].
Qed.
Print Assumptions C87_retrieved.

(* every shared spline that is one column is multiplied by its matrix *)
Theorem C87_transformed : forall qs v, Forall one_column qs -> length v = shared_total qs ->
  transformSharedSplines qs v = Some (shared_shifted qs v).
Proof. exact shared_transformed. Qed.
Example C87_transformed_ex : transformSharedSplines [mkSh "vehicle0" "splines_seg0" [2; 3]%nat (Some 2%nat) swap2; mkSh "vehicle0" "x" [0]%nat None []] [5; 6; 1]
  = Some [6; 5; 1].
Proof.
  rewrite (C87_transformed _ [5; 6; 1]); [|constructor; [|constructor; [intros n E; discriminate|constructor]]|reflexivity].
  - f_equal. cbn. repeat match goal with |- _ :: _ = _ :: _ => f_equal end; ring.
  - intros n E. injection E as <-. split; [split; [reflexivity|repeat constructor]|]. exists 1%nat. split; [lia|reflexivity].
Qed.
Print Assumptions C87_transformed.

(* of a shared variable with two columns only the first is shifted *)
Theorem C87_columns_refuted : exists q v w,
  s_basis q = Some 2%nat /\ square 2 (s_tf q) /\ s_ind q = seq 0 4 /\ length v = 4%nat /\
  transformSharedSplines [q] v = Some w /\ firstn 2 w = mat_vec (s_tf q) (firstn 2 v) /\
  skipn 2 w = skipn 2 v /\ skipn 2 w <> mat_vec (s_tf q) (skipn 2 v).
Proof. exact shared_columns_refuted. Qed.
Print Assumptions C87_columns_refuted.
