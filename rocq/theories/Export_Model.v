(** Model of the C++ code written by omgtools/export/export.py and
    export_admm.py: the text generators produce a small program, the programs
    are run by an interpreter.

    Simplifications for the whole file: C++ doubles are exact reals; a
    std::vector is a list and every subscript outside it (undefined behaviour
    in C++) is the result None; the two nested loops "for child ... for name"
    over father.children are one list of declarations in that order; the
    substituted external functions of CasADi are not modelled. *)
From Coq Require Import Reals List Arith Bool String Ascii.
Import ListNotations.
Local Open Scope R_scope.

(* used by decl, optilayer.py 225-243 *)
Definition vec := list R.

(** one declared symbol: label of the child, name, shape (optilayer.py
    225-243).  d_spline: for a spline variable the length of its basis;
    d_init: the matrix child._splines_prim[name]['init'] (None: not set) *)
Record decl := mkD { d_label : string; d_name : string; d_rows : nat; d_cols : nat;
                     d_spline : option nat; d_init : option (list vec) }.

(* used by gen_copy, export.py 302-315 *)
Definition d_size (d : decl) : nat := (d_rows d * d_cols d)%nat.

(** std::map<string, map<string, vector<double>>>; used by getParameterVector, export.py 302-315 *)
Definition dict := string -> string -> option vec.

(* used by initVariables, Point2Point.cpp 241-255 *)
Definition set_dict (m : dict) (l n : string) (v : vec) : dict :=
  fun l' n' => if (String.eqb l l' && String.eqb n n')%bool then Some v else m l' n'.

(** v[i] = x; used by shared_block, export_admm.py 160-196 *)
Definition write {A} (v : list A) (i : nat) (x : A) : option (list A) :=
  if (i <? List.length v)%nat then Some (firstn i v ++ x :: skipn (S i) v) else None.

(** for (int i=a; i<a+n; i++) body; used by shared_block, export_admm.py 160-196 *)
Fixpoint for_loop {A} (n a : nat) (body : nat -> A -> option A) (s : A) : option A :=
  match n with
  | O => Some s
  | S n' => match body a s with
            | Some s' => for_loop n' (S a) body s'
            | None => None
            end
  end.

(** ---- parameters ---- *)
(* a statement of the generated parameter code, export.py 302-336 *)
Inductive cstmt :=
| CLoop (n cnt : nat) (l nm : string)   (* for i<n: vect[cnt+i] = dict[l][nm][i] *)
| COne (cnt : nat) (l nm : string).     (* vect[cnt] = dict[l][nm][0] *)

(** export.py 302-315: _create_getParameterVector; 317-336:
    _create_getVariableVector emits the same statements *)
Fixpoint gen_copy (cnt : nat) (ds : list decl) : list cstmt :=
  match ds with
  | [] => []
  | d :: ds' =>
    (if (1 <? d_rows d)%nat then CLoop (d_size d) cnt (d_label d) (d_name d)
     else COne cnt (d_label d) (d_name d)) :: gen_copy (cnt + d_size d) ds'
  end.

(* used by getParameterVector, export.py 302-315 *)
Definition run_copy (m : dict) (s : cstmt) (v : vec) : option vec :=
  match s with
  | CLoop n cnt l nm =>
    match m l nm with
    | None => for_loop n 0 (fun _ _ => None) v
    | Some src => for_loop n 0 (fun i v => match nth_error src i with
                                           | Some x => write v (cnt + i) x
                                           | None => None end) v
    end
  | COne cnt l nm =>
    match m l nm with
    | Some (x :: _) => write v cnt x
    | _ => None
    end
  end.

(* used by getParameterVector, export.py 302-315 *)
Fixpoint run_list {S} (run : S -> vec -> option vec) (p : list S) (v : vec) : option vec :=
  match p with
  | [] => Some v
  | s :: p' => match run s v with Some v' => run_list run p' v' | None => None end
  end.

(** Point2Point.cpp getParameterVector with the code of export.py 302-315 *)
Definition getParameterVector (ds : list decl) (m : dict) (v : vec) : option vec :=
  run_list (run_copy m) (gen_copy 0 ds) v.

(** export.py 317-336: every statement is guarded by the two find calls *)
Definition run_guarded (m : dict) (s : cstmt) (v : vec) : option vec :=
  let '(l, nm) := match s with CLoop _ _ l nm => (l, nm) | COne _ l nm => (l, nm) end in
  match m l nm with
  | None => Some v
  | Some _ => run_copy m s v
  end.

(* used by initVariables, Point2Point.cpp 241-255 *)
Definition getVariableVector (ds : list decl) (m : dict) (v : vec) : option vec :=
  run_list (run_guarded m) (gen_copy 0 ds) v.

(** export.py 338-353: _create_getVariableDict.  The else branch assigns a
    double to a vector<double>, which no C++ compiler accepts: running it is
    None. *)
Inductive dstmt :=
| DLoop (n cnt : nat) (l nm : string)
| DOne (cnt : nat) (l nm : string).

(* with the above, export.py 338-353 *)
Fixpoint gen_dict (cnt : nat) (ds : list decl) : list dstmt :=
  match ds with
  | [] => []
  | d :: ds' =>
    (if (1 <? d_rows d)%nat then DLoop (d_size d) cnt (d_label d) (d_name d)
     else DOne cnt (d_label d) (d_name d)) :: gen_dict (cnt + d_size d) ds'
  end.

(* with the above, export.py 338-353 *)
Definition run_dict (v : vec) (s : dstmt) (m : dict) : option dict :=
  match s with
  | DLoop n cnt l nm =>
    match for_loop n 0 (fun i w => match nth_error v (cnt + i) with
                                   | Some x => write w i x
                                   | None => None end) (repeat 0 n) with
    | Some w => Some (set_dict m l nm w)
    | None => None
    end
  | DOne _ _ _ => None
  end.

(* with the above, export.py 338-353 *)
Fixpoint run_dicts (v : vec) (p : list dstmt) (m : dict) : option dict :=
  match p with
  | [] => Some m
  | s :: p' => match run_dict v s m with Some m' => run_dicts v p' m' | None => None end
  end.

(* with the above, export.py 338-353 *)
Definition getVariableDict (ds : list decl) (v : vec) (m : dict) : option dict :=
  run_dicts v (gen_dict 0 ds) m.

(** Point2Point.cpp 241-255: initVariables, the dictionary holds only the
    splines of the vehicle; init_var_veh is the list of its columns *)
Definition initVariables (ds : list decl) (veh : string) (cols : list vec) (v : vec) : option vec :=
  getVariableVector ds (set_dict (fun _ _ => None) veh "splines_seg0" (List.concat cols)) v.

(** Point2Point.cpp 276-294: extractData takes column k from position
    k*len_basis of the stored vector *)
Definition columns_of (len_basis n_spl : nat) (v : vec) : list vec :=
  map (fun k => firstn len_basis (skipn (k * len_basis) v)) (seq 0 n_spl).

(** ---- shifting the splines ---- *)

(** str.upper() on ASCII letters; used by the constants of export.py 247-259 *)
Definition upper_char (c : ascii) : ascii :=
  let n := nat_of_ascii c in
  if ((97 <=? n) && (n <=? 122))%nat%bool then ascii_of_nat (n - 32) else c.
(* with the above, export.py 247-259 *)
Fixpoint upper (s : string) : string :=
  match s with
  | EmptyString => EmptyString
  | String c s' => String (upper_char c) (upper s')
  end.

(** export.py 247-259: _create_spline_tf, one constant NAME_TF per upper-case
    name, a later entry of the dictionary replaces an earlier one *)
Fixpoint tf_constant (ds : list decl) (u : string) (acc : option (list vec)) : option (list vec) :=
  match ds with
  | [] => acc
  | d :: ds' =>
    tf_constant ds' u
      match d_spline d, d_init d with
      | Some _, Some M => if String.eqb (upper (d_name d)) u then Some M else acc
      | _, _ => acc
      end
  end.

(** export.py 398-404: _create_initSplines, splines_tf[name] = NAME_TF (a
    missing constant does not compile: None) *)
Definition splines_tf (ds : list decl) (nm : string) : option (list vec) :=
  tf_constant ds (upper nm) None.

(* used by gen_shift, export.py 406-441 *)
Inductive tstmt :=
| TResize (n : nat)                                    (* spline_tf.resize(n) *)
| TShift (cols rows cnt : nat) (nm : string).

(** export.py 406-441: _create_transformSplines, the body of the if; cnt is
    advanced by var.size(1) only *)
Fixpoint gen_shift (cnt tf_len : nat) (ds : list decl) : list tstmt :=
  match ds with
  | [] => []
  | d :: ds' =>
    match d_spline d with
    | Some n =>
      (if (tf_len <? n)%nat then [TResize n] else []) ++
      TShift (d_cols d) (d_rows d) cnt (d_name d)
        :: gen_shift (cnt + d_rows d) (if (tf_len <? n)%nat then n else tf_len) ds'
    | None => gen_shift (cnt + d_rows d) tf_len ds'
    end
  end.

(** std::vector::resize; with export.py 406-441 *)
Definition resize (n : nat) (v : vec) : vec := firstn n v ++ repeat 0 (n - List.length v).

(** spline_tf[i] = 0.0; for j: spline_tf[i] += tf[i][j]*variables[off+j]; used by shared_block, export_admm.py 160-196 *)
Definition shift_entry (row : vec) (v : vec) (off rows : nat) : option R :=
  for_loop rows 0 (fun j acc => match nth_error row j, nth_error v (off + j) with
                                | Some a, Some x => Some (acc + a * x)
                                | _, _ => None end) 0.

(* with the above, export.py 406-441 *)
Definition shift_column (M : list vec) (rows off : nat) (st : vec * vec) : option (vec * vec) :=
  match for_loop rows 0 (fun i buf => match nth_error M i with
                                      | Some row => match shift_entry row (snd st) off rows with
                                                    | Some x => write buf i x
                                                    | None => None end
                                      | None => None end) (fst st) with
  | None => None
  | Some buf =>
    match for_loop rows 0 (fun i v => match nth_error buf i with
                                      | Some x => write v (off + i) x
                                      | None => None end) (snd st) with
    | Some v => Some (buf, v)
    | None => None
    end
  end.

(* with the above, export.py 406-441 *)
Definition run_shift (tfs : string -> option (list vec)) (s : tstmt) (st : vec * vec) : option (vec * vec) :=
  match s with
  | TResize n => Some (resize n (fst st), snd st)
  | TShift cols rows cnt nm =>
    match tfs nm with
    | Some M => for_loop cols 0 (fun k st => shift_column M rows (cnt + k * rows) st) st
    | None => None
    end
  end.

(* with the above, export.py 406-441 *)
Fixpoint run_shifts (tfs : string -> option (list vec)) (p : list tstmt) (st : vec * vec) : option (vec * vec) :=
  match p with
  | [] => Some st
  | s :: p' => match run_shift tfs s st with Some st' => run_shifts tfs p' st' | None => None end
  end.

(** Point2Point.cpp transformSplines when interval_now > interval_prev;
    len_veh = len(problem.vehicles[0].basis); with export.py 406-441 *)
Definition transformSplines (ds : list decl) (len_veh : nat) (v : vec) : option vec :=
  match run_shifts (splines_tf ds) (gen_shift 0 len_veh ds) (repeat 0 len_veh, v) with
  | Some (_, v') => Some v'
  | None => None
  end.

(** ---- constraint bounds ---- *)
(* entries of LBG_DEF and UBG_DEF, export.py 261-277 *)
Inductive bound := NegInf | Fin (x : R) | PosInf.

(** one constraint: number of rows, its bounds, the shutdown condition if
    there is one, the index of the obstacle that owns it if it is an obstacle.
    Simplification: the condition is a predicate on the time; the textual
    replacement of every letter t by current_time is not modelled; used by gen_shutdown, export.py 355-386 *)
Record cstr := mkC { c_lb : list bound; c_ub : list bound;
                     c_shut : option (R -> bool); c_obst : option nat }.

(* used by gen_shutdown, export.py 355-386 *)
Definition c_size (c : cstr) : nat := List.length (c_lb c).

(* used by gen_bounds, export.py 355-396 *)
Definition lbg_def (cs : list cstr) : list bound := List.concat (map c_lb cs).  (* LBG_DEF, 258-275 *)
(* with the above, export.py 261-277 *)
Definition ubg_def (cs : list cstr) : list bound := List.concat (map c_ub cs).  (* UBG_DEF *)

(* used by py_update_bounds, optilayer.py 313-319 *)
Definition bounds := (list bound * list bound)%type.

(* the conditions of the generated if statements, export.py 355-396 *)
Inductive cond := CTime (f : R -> bool) | CNotAvoid (k : nat).
(* the generated if statements, export.py 355-396 *)
Inductive bstmt := BIf (c : cond) (pos : list (nat * bound * bound)) (neg : list (nat * bound * bound)).

(* used by gen_shutdown, export.py 355-386 *)
Definition off_block (cnt n : nat) : list (nat * bound * bound) :=
  map (fun i => (cnt + i, NegInf, PosInf)%nat) (seq 0 n).
(* with the above, export.py 355-386 *)
Definition def_block (lb ub : list bound) (cnt n : nat) : list (nat * bound * bound) :=
  map (fun i => (cnt + i, nth (cnt + i) lb NegInf, nth (cnt + i) ub PosInf)%nat) (seq 0 n).

(** export.py 355-386: _create_updateBounds, the statements of the shutdown
    conditions *)
Fixpoint gen_shutdown (lb ub : list bound) (cnt : nat) (cs : list cstr) : list bstmt :=
  match cs with
  | [] => []
  | c :: cs' =>
    match c_shut c with
    | Some f => [BIf (CTime f) (off_block cnt (c_size c)) (def_block lb ub cnt (c_size c))]
    | None => []
    end ++ gen_shutdown lb ub (cnt + c_size c) cs'
  end.

(** export.py 375-385: the code collected for obstacle k *)
Fixpoint gen_obst (blk : nat -> nat -> list (nat * bound * bound)) (k cnt : nat) (cs : list cstr) :
  list (nat * bound * bound) :=
  match cs with
  | [] => []
  | c :: cs' =>
    match c_obst c with
    | Some j => if (j =? k)%nat then blk cnt (c_size c) else []
    | None => []
    end ++ gen_obst blk k (cnt + c_size c) cs'
  end.

(** export.py 355-396 *)
Definition gen_bounds (n_obs : nat) (cs : list cstr) : list bstmt :=
  gen_shutdown (lbg_def cs) (ubg_def cs) 0 cs ++
  map (fun k => BIf (CNotAvoid k) (gen_obst off_block k 0 cs)
                    (gen_obst (def_block (lbg_def cs) (ubg_def cs)) k 0 cs)) (seq 0 n_obs).

(* with the above, export.py 355-396 *)
Fixpoint assign (p : list (nat * bound * bound)) (b : bounds) : option bounds :=
  match p with
  | [] => Some b
  | (i, l, u) :: p' =>
    match write (fst b) i l, write (snd b) i u with
    | Some l', Some u' => assign p' (l', u')
    | _, _ => None
    end
  end.

(* with the above, export.py 355-396 *)
Definition run_bound (t : R) (avoid : list bool) (s : bstmt) (b : bounds) : option bounds :=
  match s with
  | BIf c pos neg =>
    match c with
    | CTime f => assign (if f t then pos else neg) b
    | CNotAvoid k => match nth_error avoid k with
                     | Some a => assign (if a then neg else pos) b
                     | None => None
                     end
    end
  end.

(* with the above, export.py 355-396 *)
Fixpoint run_bounds (t : R) (avoid : list bool) (p : list bstmt) (b : bounds) : option bounds :=
  match p with
  | [] => Some b
  | s :: p' => match run_bound t avoid s b with Some b' => run_bounds t avoid p' b' | None => None end
  end.

(** Point2Point.cpp updateBounds; with export.py 355-396 *)
Definition updateBounds (n_obs : nat) (cs : list cstr) (t : R) (avoid : list bool) (b : bounds) : option bounds :=
  run_bounds t avoid (gen_bounds n_obs cs) b.

(** optilayer.py 313-319: update_bounds of the Python problem *)
Definition py_update_bounds (cs : list cstr) (t : R) : bounds :=
  (List.concat (map (fun c => if match c_shut c with Some f => f t | None => false end
                         then repeat NegInf (c_size c) else c_lb c) cs),
   List.concat (map (fun c => if match c_shut c with Some f => f t | None => false end
                         then repeat PosInf (c_size c) else c_ub c) cs)).

(** ---- obstacles and the shared variables of the distributed problems ---- *)
(* the obstacle_t of the exported code, filled by fillParameterDict (export.py 446-476) *)
Record obstacle := mkO { o_pos : vec; o_vel : vec; o_acc : vec }.

(** export.py 446-476: the prediction written by _create_fillParameterDict
    (two dimensions); None when a vector is too short *)
Definition predict2 (u : R) (o : obstacle) : option (vec * vec * vec) :=
  match o_pos o, o_vel o, o_acc o with
  | p0 :: p1 :: _, v0 :: v1 :: _, a0 :: a1 :: _ =>
    Some ([p0 + u * v0 + 5 / 10 * u ^ 2 * a0; p1 + u * v1 + 5 / 10 * u ^ 2 * a1],
          [v0 + u * a0; v1 + u * a1], [a0; a1])
  | _, _, _ => None
  end.

(** "'obstacle' in label"; used by obstacle_index, export.py 446-476 *)
Fixpoint contains (sub s : string) : bool :=
  (String.prefix sub s ||
   match s with EmptyString => false | String _ s' => contains sub s' end)%bool.

(** export.py 446-476: obst_ind, the index into the obstacles vector for the
    child with this label *)
Fixpoint obstacle_index (labels : list string) (ind : nat) (l : string) : option nat :=
  match labels with
  | [] => None
  | l' :: r =>
    if contains "obstacle" l'
    then if String.eqb l' l then Some ind else obstacle_index r (S ind) l
    else obstacle_index r ind l
  end.

(** export_admm.py 128-144: _create_retrieveSharedVariables for variables of
    the problem: a shared entry is (label, name, indices); position cnt of
    x_i gets dict[label][name][i] *)
Record shared := mkSh { s_label : string; s_name : string; s_ind : list nat;
                        s_basis : option nat; s_tf : list vec }.

(* with the above, export_admm.py 128-144 *)
Fixpoint copy_inds (m : dict) (l nm : string) (cnt : nat) (ind : list nat) (v : vec) : option vec :=
  match ind with
  | [] => Some v
  | i :: ind' =>
    match m l nm with
    | Some src => match nth_error src i with
                  | Some x => match write v cnt x with
                              | Some v' => copy_inds m l nm (S cnt) ind' v'
                              | None => None end
                  | None => None end
    | None => None
    end
  end.

(* with the above, export_admm.py 128-144 *)
Fixpoint retrieve_shared (m : dict) (cnt : nat) (qs : list shared) (v : vec) : option vec :=
  match qs with
  | [] => Some v
  | q :: qs' =>
    match copy_inds m (s_label q) (s_name q) cnt (s_ind q) v with
    | Some v' => retrieve_shared m (cnt + List.length (s_ind q)) qs' v'
    | None => None
    end
  end.

(** set(range(sl_min, sl_max)) <= set(ind); with export_admm.py 128-144 *)
Definition covers (ind : list nat) (a n : nat) : bool :=
  forallb (fun i => existsb (Nat.eqb i) ind) (seq a n).

(** export_admm.py 160-196: _create_transformSharedSplines for one of the
    vectors x_i, z_i, l_i (and block k of z_ij, ...: off = k*n_shared): the
    loop over l repeats the statement for position cnt; the results are
    collected in a copy of the old vector *)
Definition shared_block (M : list vec) (n off : nat) (old : vec) (v : vec) : option vec :=
  for_loop n 0 (fun i v => match nth_error M i with
                           | Some row => match shift_entry row old off n with
                                         | Some x => write v (off + i) x
                                         | None => None end
                           | None => None end) v.

(* with the above, export_admm.py 160-196 *)
Fixpoint transform_shared (off cnt : nat) (qs : list shared) (old v : vec) : option vec :=
  match qs with
  | [] => Some v
  | q :: qs' =>
    match match s_basis q with
          | None => Some v
          | Some n =>
            for_loop n 0 (fun l v => if covers (s_ind q) (l * n) n
                                     then shared_block (s_tf q) n (off + cnt) old v else Some v) v
          end with
    | Some v' => transform_shared off (cnt + List.length (s_ind q)) qs' old v'
    | None => None
    end
  end.

(* with the above, export_admm.py 160-196 *)
Definition transformSharedSplines (qs : list shared) (v : vec) : option vec :=
  transform_shared 0 0 qs v v.
