(** Model of the store of decision variables of omgtools/basics/optilayer.py
    (definition of variables, initial values, reading, writing and
    transforming them) and of what the problems do with it between two solves
    (omgtools/problems/problem.py solve and sleep, point2point.py init_step,
    multiframeproblem.py init_step, omgtools/basics/spline_extra.py
    shift_spline).

    Simplifications: exact reals; an array is the list of its columns; the
    CasADi structure of the variables is a dictionary with keys (label of the
    child, name) in the order of the entries; assigning an array of another
    shape raises, a number is spread over the entry (an array with one entry
    is given as a number); substitutes (define_substitute) are left out; a
    raised exception is the name of its class.  The solver is a function of
    the initial guess; parameters and bounds are the subject of Opti_Model. *)
From Coq Require Import String Ascii Reals List Arith Bool ZArith QArith.
From Verif Require Import Spline_Model Splop_Model Shift_Model.
From Verif Require Opti_Model Multi_Model Timing_Model.
Import ListNotations.
Local Open Scope R_scope.
Local Notation length := List.length.
Local Notation dict := Opti_Model.dict.
Local Notation dget := Opti_Model.dget.
Local Notation dset := Opti_Model.dset.
Local Notation dhas := Opti_Model.dhas.
Local Notation py_str := Opti_Model.py_str.

(** a value or the exception that is raised: optilayer.py 332-346, 470-490 *)
Inductive res (A : Type) := Ok (a : A) | Raise (e : string).
Arguments Ok {A}. Arguments Raise {A}.
(* used by init_variables and transform, optilayer.py 321-327, 470-490 *)
Definition bind {A B} (x : res A) (f : A -> res B) : res B :=
  match x with Ok a => f a | Raise e => Raise e end.

(* ---------- definitions ---------- *)

(** a two-dimensional array, by its columns; used by _define_mx, optilayer.py 610-617 *)
Definition arr := list (list R).
(** number of rows and columns; used by _define_mx, optilayer.py 610-617 *)
Definition shape := (nat * nat)%type.
(** the argument value of define_variable: a number or an array; optilayer.py 559-561 *)
Inductive value := VNum (r : R) | VArr (a : arr).

(** the part of OptiChild that names variables: optilayer.py 509-522 *)
Record child := mkChild {
  label : string;
  vars : dict string shape;        (* _variables: MX symbols, only their shape matters *)
  pars : dict string shape;        (* _parameters *)
  syms : dict string shape;        (* _symbols *)
  vals : dict string value;        (* _values *)
  prim : dict string bbasis        (* _splines_prim *)
}.
(* optilayer.py 509-522 *)
Definition new_child (l : string) : child := mkChild l [] [] [] [] [].

(** the dictionary that a definition writes to: optilayer.py 556-583 *)
Inductive kind := KVar | KPar | KSym.

(** optilayer.py 610-617: _define_mx (without the symbol dictionary) *)
Definition define_mx (k : kind) (name : string) (rows cols : nat) (v : option value) (c : child) : child :=
  let v' := match v with
            | None => VArr (repeat (repeat 0 rows) cols)                     (* 611-612 *)
            | Some x => x
            end in
  let vs := dset String.eqb name v' (vals c) in                              (* 615 *)
  let put d := dset String.eqb name (rows, cols) d in                        (* 614 *)
  match k with
  | KVar => mkChild (label c) (put (vars c)) (pars c) (syms c) vs (prim c)
  | KPar => mkChild (label c) (vars c) (put (pars c)) (syms c) vs (prim c)
  | KSym => mkChild (label c) (vars c) (pars c) (put (syms c)) vs (prim c)
  end.

(** optilayer.py 626-628: a group of size0 splines under one name *)
Definition define_group (k : kind) (name : string) (size0 : nat) (b : bbasis) (v : option value) (c : child) : child :=
  let c' := define_mx k name (blen b) size0 v c in
  mkChild (label c') (vars c') (pars c') (syms c') (vals c') (dset String.eqb name b (prim c')).

(** optilayer.py 619-629: _define_mx_spline; with size1 > 1 the groups get a
    number behind their name *)
Definition define_mx_spline (k : kind) (name : string) (size0 size1 : nat) (b : bbasis) (v : option value)
    (c : child) : child :=
  if (1 <? size1)%nat
  then fold_left (fun c l => define_group k (name ++ py_str l)%string size0 b v c) (seq 0 size1) c   (* 620-623 *)
  else define_group k name size0 b v c.                                                       (* 626-629 *)

(** optilayer.py 631-632: set_value *)
Definition set_value (name : string) (v : value) (c : child) : child :=
  mkChild (label c) (vars c) (pars c) (syms c) (dset String.eqb name v (vals c)) (prim c).

(** the calls that a child makes while the problem is constructed:
    optilayer.py 556-583, 631-632, 675-686 *)
Inductive op :=
  | Plain (k : kind) (name : string) (rows cols : nat) (v : option value)
  | Group (k : kind) (name : string) (size0 size1 : nat) (b : bbasis) (v : option value)
  | SetValue (name : string) (v : value)
  | Reset.
(* with the above, optilayer.py 556-583, 631-632, 675-686 *)
Definition run_op (c : child) (o : op) : child :=
  match o with
  | Plain k n r q v => define_mx k n r q v c
  | Group k n s0 s1 b v => define_mx_spline k n s0 s1 b v c
  | SetValue n v => set_value n v c
  | Reset => new_child (label c)
  end.
(* with the above, optilayer.py 556-583, 631-632, 675-686 *)
Definition run_ops (ops : list op) (c : child) : child := fold_left run_op ops c.

(* ---------- the store ---------- *)

(** keys of the structure of variables: label of the child and name; optilayer.py 225-233 *)
Definition key := (string * string)%type.
(* with the above, optilayer.py 225-233 *)
Definition key_eqb (a b : key) : bool := (String.eqb (fst a) (fst b) && String.eqb (snd a) (snd b))%bool.
(** optilayer.py 225-233: construct_variables, the entries in order with their shapes *)
Definition layout (cs : list child) : list (key * shape) :=
  flat_map (fun c => map (fun ns => ((label c, fst ns), snd ns)) (vars c)) cs.
(** the values of all entries: _var_result, optilayer.py 321-327 *)
Definition store := dict key arr.

(** is the array of that shape; used by fill, optilayer.py 325, 338 *)
Definition fits (sh : shape) (a : arr) : bool :=
  (length a =? snd sh)%nat && forallb (fun col => (length col =? fst sh)%nat) a.
(** assignment to an entry: optilayer.py 325, 338 *)
Definition fill (sh : shape) (v : value) : res arr :=
  match v with
  | VNum r => Ok (repeat (repeat r (fst sh)) (snd sh))
  | VArr a => if fits sh a then Ok a else Raise "Exception"
  end.

(** the loop over the entries that fills them: optilayer.py 322-325 *)
Fixpoint fill_all (l : list (key * (shape * option value))) : res store :=
  match l with
  | [] => Ok []
  | (k, (sh, Some v)) :: l' => bind (fill sh v) (fun a => bind (fill_all l') (fun r => Ok ((k, a) :: r)))
  | (_, (_, None)) :: _ => Raise "KeyError"
  end.
(** optilayer.py 321-327: init_variables *)
Definition init_variables (cs : list child) : res store :=
  fill_all (flat_map (fun c => map (fun ns => ((label c, fst ns), (snd ns, dget String.eqb (fst ns) (vals c)))) (vars c)) cs).

(** all numbers of the store, entry by entry, column by column: what is handed
    to the solver, problem.py 107, 113 *)
Definition cat (s : store) : list R := concat (map (fun ka => concat (snd ka)) s).

(** cut a list in n pieces of m numbers: a column-major array; used by uncat, optilayer.py 334 *)
Fixpoint cut (m n : nat) (x : list R) : arr :=
  match n with O => [] | S n' => firstn m x :: cut m n' (skipn m x) end.
(** optilayer.py 334: _var_struct(vector) *)
Fixpoint uncat (l : list (key * shape)) (x : list R) : store :=
  match l with
  | [] => []
  | (k, sh) :: l' => (k, cut (fst sh) (snd sh) x) :: uncat l' (skipn (fst sh * snd sh) x)
  end.
(** number of variables; used by set_all, optilayer.py 334 *)
Definition size (l : list (key * shape)) : nat := list_sum (map (fun ks => fst (snd ks) * snd (snd ks))%nat l).

(** optilayer.py 332-338: set_variables without child *)
Definition set_all (cs : list child) (x : list R) : res store :=
  if (length x =? size (layout cs))%nat then Ok (uncat (layout cs) x) else Raise "Exception".
(** optilayer.py 337-338: set_variables for one entry *)
Definition set_one (cs : list child) (c : child) (name : string) (v : value) (s : store) : res store :=
  match dget key_eqb (label c, name) (layout cs) with
  | None => Raise "KeyError"
  | Some sh => bind (fill sh v) (fun a => Ok (dset key_eqb (label c, name) a s))
  end.
(** optilayer.py 335-336: set_variables for all entries of a child, from one vector *)
Definition set_child (cs : list child) (c : child) (x : list R) (s : store) : res store :=
  let mine := filter (fun ks => String.eqb (fst (fst ks)) (label c)) (layout cs) in
  if existsb (fun d => String.eqb (label d) (label c)) cs then
    if (length x =? size mine)%nat
    then Ok (fold_left (fun t ka => dset key_eqb (fst ka) (snd ka) t) (uncat mine x) s)
    else Raise "Exception"
  else Raise "KeyError".

(** what get_variables returns for one name: splines or an array; optilayer.py 375-386 *)
Inductive got := Splines (l : list bspline) | Array (a : arr).
(** optilayer.py 348-386: get_variables(child, name, spline=...) of a name that
    is no substitute *)
Definition get_one (c : child) (name : string) (spline : bool) (s : store) : res got :=
  match dget key_eqb (label c, name) s with
  | None => Raise "KeyError"
  | Some a =>
      match dget String.eqb name (prim c) with
      | Some b => if spline then Ok (Splines (map (mkS b) a)) else Ok (Array a)     (* 375-381 *)
      | None => Ok (Array a)                                                        (* 383-386 *)
      end
  end.

(* ---------- transformations ---------- *)

Section Transform.
Context {T : Type}.

(** the dictionary _init_tf with bases as keys (spline.py 181-189): optilayer.py 453-459 *)
Fixpoint tf_find (b : bbasis) (d : list (bbasis * T)) : option T :=
  match d with
  | [] => None
  | (b', t) :: d' => if basis_eq b b' then Some t else tf_find b d'
  end.

(** the names of one child: optilayer.py 455-460.  [ini] is
    init_primal_transform, which may raise *)
Fixpoint init_names (ini : bbasis -> res T) (c : child) (l : dict string bbasis)
    (cache : list (bbasis * T)) (out : dict key T) : res (list (bbasis * T) * dict key T) :=
  match l with
  | [] => Ok (cache, out)
  | (n, b) :: l' =>
      if dhas String.eqb n (vars c) then                                            (* 456 *)
        match tf_find b cache with
        | Some t => init_names ini c l' cache (dset key_eqb (label c, n) t out)     (* 460 *)
        | None => bind (ini b) (fun t =>                                            (* 458-459 *)
            init_names ini c l' (cache ++ [(b, t)]) (dset key_eqb (label c, n) t out))
        end
      else init_names ini c l' cache out
  end.
(** optilayer.py 451-460: init_transformations, primal part; the result is the
    entry 'init' of every spline variable *)
Fixpoint init_children (ini : bbasis -> res T) (cs : list child) (cache : list (bbasis * T)) (out : dict key T)
    : res (list (bbasis * T) * dict key T) :=
  match cs with
  | [] => Ok (cache, out)
  | c :: cs' => bind (init_names ini c (prim c) cache out) (fun co => init_children ini cs' (fst co) (snd co))
  end.
(* with the above, optilayer.py 451-460 *)
Definition init_transformations (ini : bbasis -> res T) (cs : list child) : res (dict key T) :=
  bind (init_children ini cs [] []) (fun co => Ok (snd co)).

(** int(c) of one character: optilayer.py 482 *)
Definition py_digit (c : ascii) : res nat :=
  if Opti_Model.isdigit_c c then Ok (Opti_Model.digit_val c) else Raise "ValueError".
(** optilayer.py 482: is the name that of a variable to be transformed *)
Definition seg_hit (segs : list nat) (name : string) : res bool :=
  match String.index 0 "seg" name with
  | None => Ok false                                       (* 'seg' in name *)
  | Some i =>
      match String.get (i + 3) name with                   (* name[name.index('seg')+3] *)
      | None => Raise "IndexError"
      | Some c => bind (py_digit c) (fun n => Ok (existsb (Nat.eqb n) segs))
      end
  end.

(** optilayer.py 472-477: the argument seg_shift *)
Definition segs_of (a : option (nat + list nat)) : list nat :=
  match a with None => [0%nat] | Some (inl n) => [n] | Some (inr l) => l end.

(** optilayer.py 479-490: the loop over the splines of a child.  [f] is
    transform_fun with its arguments coefficients, basis and 'init' *)
Fixpoint transform_names (f : arr -> bbasis -> T -> res arr) (init : dict key T) (segs : list nat) (c : child)
    (l : dict string bbasis) (s : store) : res store :=
  match l with
  | [] => Ok s
  | (n, b) :: l' =>
      if dhas String.eqb n (vars c) then                                            (* 480 *)
        bind (seg_hit segs n) (fun hit =>                                           (* 482 *)
          if hit then
            match dget String.eqb n (vars c), dget key_eqb (label c, n) init, dget key_eqb (label c, n) s with
            | Some sh, Some t, Some a => bind (f a b t) (fun a' => bind (fill sh (VArr a')) (fun a2 =>
                transform_names f init segs c l' (dset key_eqb (label c, n) a2 s))) (* 486-490 *)
            | _, _, _ => Raise "KeyError"
            end
          else transform_names f init segs c l' s)
      else transform_names f init segs c l' s
  end.
(** optilayer.py 470-490: transform_primal_splines *)
Fixpoint transform_children (f : arr -> bbasis -> T -> res arr) (init : dict key T) (segs : list nat)
    (cs : list child) (s : store) : res store :=
  match cs with
  | [] => Ok s
  | c :: cs' => bind (transform_names f init segs c (prim c) s) (transform_children f init segs cs')
  end.
(* with the above, optilayer.py 470-490 *)
Definition transform_primal_splines (f : arr -> bbasis -> T -> res arr) (init : dict key T)
    (seg_shift : option (nat + list nat)) (cs : list child) (s : store) : res store :=
  transform_children f init (segs_of seg_shift) cs s.
End Transform.

(** a function of one column on all columns; None: it raised; used by
    fixed_transform and free_transform, point2point.py 194-195, 366-367 *)
Definition on_columns (f : list R -> option (list R)) (a : arr) : res arr :=
  match oall (map f a) with Some a' => Ok a' | None => Raise "LinAlgError" end.

(* ---------- fixed motion time ---------- *)

(** point2point.py 200-201: init_primal_transform; None: shiftoverknot_T raises *)
Definition fixed_init (tol : R) (b : bbasis) : res (option mat) :=
  match shiftoverknot_T tol b with Some M => Ok (Some M) | None => Raise "LinAlgError" end.
(** point2point.py 194-195: lambda coeffs, basis, T: T.dot(coeffs); without
    'init' it would be called with two arguments (optilayer.py 485-490) *)
Definition fixed_transform (a : arr) (b : bbasis) (M : option mat) : res arr :=
  match M with
  | Some M => Ok (map (mdot (blen b) (blen b) M) a)
  | None => Raise "TypeError"
  end.
(** point2point.py 187-198: init_step of FixedTPoint2point; the new
    current_time_prev and the store *)
Definition fixed_init_step (init : dict key (option mat)) (cs : list child) (kt : Q) (prev now : Q) (s : store)
    : res (Q * store) :=
  if Z.ltb (Timing_Model.interval kt prev) (Timing_Model.interval kt now)
  then bind (transform_primal_splines fixed_transform init None cs s) (fun s' => Ok (now, s'))
  else Ok (now, s).

(* ---------- free motion time ---------- *)

(** np.linspace(a, b, n); used by shift_spline, spline_extra.py 95 *)
Definition linspace (a b : R) (n : nat) : list R :=
  map (fun i => a + INR i * ((b - a) / INR (n - 1))) (seq 0 n).
(** spline_extra.py 91-97: the equidistant basis on [t_shift, end] *)
Definition shifted_basis (t : R) (b : bbasis) : bbasis :=
  let e := last (knots b) 0 in
  mkB (repeat t (degree b) ++ linspace t e (blen b - degree b + 1) ++ repeat e (degree b)) (degree b).
(** spline_extra.py 88-99: shift_spline *)
Definition shift_spline (tol : R) (c : list R) (t : R) (b : bbasis) : option (list R) :=
  match transform_basis tol (shifted_basis t b) b with
  | Some cols => Some (cols_dot (blen (shifted_basis t b)) cols c)
  | None => None
  end.
(** problem.py 271-272: init_primal_transform of the other problems *)
Definition free_init (b : bbasis) : res (option mat) := Ok None.
(** point2point.py 366-367, multiframeproblem.py 246-247: lambda coeffs, basis; with
    'init' it would be called with three arguments (optilayer.py 485-490) *)
Definition free_transform (tol t : R) (a : arr) (b : bbasis) (M : option mat) : res arr :=
  match M with
  | None => on_columns (fun c => shift_spline tol c t b) a
  | Some _ => Raise "TypeError"
  end.
(** get_variables(self, name)[0][0]: point2point.py 356, multiframeproblem.py 234 *)
Definition get_number (c : child) (name : string) (s : store) : res R :=
  match get_one c name true s with
  | Raise e => Raise e
  | Ok (Array ((r :: _) :: _)) => Ok r
  | Ok _ => Raise "IndexError"
  end.
(** point2point.py 354-368: init_step of FreeTPoint2point with the problem [p].
    [now] is what solve passes on, which is relative to start_time already
    (problem.py 104-105) *)
Definition free_init_step (tol : R) (init : dict key (option mat)) (cs : list child) (p : child)
    (start now update : R) (s : store) : res store :=
  if Rltb 0 (now - start) then
    bind (get_number p "T" s) (fun T =>
      let ut := Multi_Model.step_times T update in
      bind (transform_primal_splines (free_transform tol (fst ut / snd ut)) init None cs s) (fun s' =>
        set_one cs p "T" (VNum (snd ut)) s'))
  else Ok s.
(** multiframeproblem.py 231-234: the sum of the motion times T0, T1, ... *)
Fixpoint sum_times (p : child) (k n : nat) (s : store) : res R :=
  match n with
  | O => Ok 0
  | S n' => bind (sum_times p k n' s) (fun acc =>
              bind (get_number p ("T" ++ py_str (k + n'))%string s) (fun r => Ok (acc + r)))
  end.
(** multiframeproblem.py 229-249: init_step with n frames *)
Definition frames_init_step (tol : R) (init : dict key (option mat)) (cs : list child) (p : child) (n : nat)
    (start now update : R) (s : store) : res store :=
  if Rltb 0 (now - start) then
    bind (sum_times p 0 n s) (fun T =>
      let ut := Multi_Model.step_times T update in
      bind (transform_primal_splines (free_transform tol (fst ut / snd ut)) init (Some (inr [0%nat])) cs s) (fun s1 =>
        bind (get_number p "T0" s1) (fun T0 => set_one cs p "T0" (VNum (T0 - fst ut)) s1)))
  else Ok s.

(* ---------- solve and sleep ---------- *)

(** problem.py 103-128: solve.  [step] is init_step with the relative time,
    [reset] is reset_init_guess; the solver returns the point and its status *)
Definition solve (cs : list child) (start now : R) (step : R -> store -> res store) (reset : store -> res store)
    (solver : list R -> list R * string) (s : store) : res store :=
  let rel := now - start in                                                  (* 104 *)
  bind (step rel s) (fun s1 =>                                               (* 105 *)
    let '(x, status) := solver (cat s1) in                                   (* 107, 113 *)
    bind (set_all cs x) (fun s2 =>                                           (* 117 *)
      if String.eqb status "Maximum_CpuTime_Exceeded" && negb (Reqb rel 0)   (* 120-124 *)
      then reset s2 else Ok s2)).

(** problem.py 197-204: the splines that sleep stores for a vehicle with n
    segments: every spline at its last coefficient *)
Definition hold (s : bspline) (v : R) : bspline := mkS (sbasis s) (repeat v (blen (sbasis s))).
(* with the above, problem.py 197-204 *)
Definition hold_segment (c : child) (name : string) (s : store) : res (list bspline) :=
  match get_one c name true s, get_one c name false s with
  | Ok (Splines l), Ok (Array a) =>
      Ok (map (fun sv => hold (fst sv) (snd sv)) (combine l (map (fun col => last col 0) a)))
  | Raise e, _ => Raise e
  | _, Raise e => Raise e
  | _, _ => Raise "TypeError"
  end.
(* with the above, problem.py 197-204 *)
Fixpoint sleep_segments (c : child) (k n : nat) (s : store) : res (list (list bspline)) :=
  match n with
  | O => Ok []
  | S n' => bind (hold_segment c ("splines_seg" ++ py_str k)%string s) (fun l =>
              bind (sleep_segments c (S k) n' s) (fun r => Ok (l :: r)))
  end.
