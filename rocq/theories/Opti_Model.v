(* Model of omgtools/basics/optilayer.py: labels, symbol dictionaries,
   constraints and parameters of OptiChild / OptiFather.

   Simplifications, common to the whole file:
   - strings are ASCII strings; str.isalpha and str.isdigit are the ASCII tests;
   - a Python dict / OrderedDict is an association list without duplicate keys,
     kept in insertion order;
   - an object used as a dictionary key (identity hash) is its number;
   - a casadi MX symbol is its name; the matrix it stands for is not modelled. *)

Require Import List String Ascii ZArith Bool Arith.
Require Import DecimalString Decimal DecimalNat.
Import ListNotations.
Open Scope string_scope.

(* Outcome of a call: a value or the exception that is raised (optilayer.py 427-445, 538-550). *)
Inductive exn :=
  | IndexError | RecursionError | KeyError | NameError
  | ValueMultiple | ValueUndefined | ValueTwice | ValueSubstitute.
(* used by make_label, optilayer.py 538-550 *)
Inductive result (A : Type) := Ok (a : A) | Err (e : exn).
Arguments Ok {A}. Arguments Err {A}.

(* ---------- dictionaries ---------- *)
Section Dict.
Context {K V : Type} (eqb : K -> K -> bool).
(* used by child, optilayer.py 509-522 *)
Definition dict := list (K * V).

(* d[k] / d.get(k); used by substitute_symbol, optilayer.py 285-294 *)
Fixpoint dget (k : K) (d : dict) : option V :=
  match d with
  | [] => None
  | (k', v) :: d' => if eqb k k' then Some v else dget k d'
  end.

(* k in d, as in optilayer.py 433-437 *)
Definition dhas (k : K) (d : dict) : bool :=
  match dget k d with Some _ => true | None => false end.

(* d[k] = v : overwrite in place, otherwise append; used by define_mx, optilayer.py 610-617 *)
Fixpoint dset (k : K) (v : V) (d : dict) : dict :=
  match d with
  | [] => [(k, v)]
  | (k', v') :: d' => if eqb k k' then (k', v) :: d' else (k', v') :: dset k v d'
  end.

(* d.update(e); used by compose_dictionary, optilayer.py 200-202 *)
Definition dupdate (d e : dict) : dict :=
  fold_left (fun d kv => dset (fst kv) (snd kv) d) e d.
End Dict.
Arguments dict : clear implicits.

(* ---------- labels ---------- *)

(* str.isalpha on one ASCII character; used by make_label, optilayer.py 538-550 *)
Definition isalpha (c : ascii) : bool :=
  let n := nat_of_ascii c in
  ((65 <=? n) && (n <=? 90) || (97 <=? n) && (n <=? 122))%nat%bool.

(* str.isdigit on one ASCII character; used by _make_label, optilayer.py 538-550 *)
Definition isdigit_c (c : ascii) : bool :=
  let n := nat_of_ascii c in ((48 <=? n) && (n <=? 57))%nat%bool.

(* used by _make_label, optilayer.py 538-550 *)
Fixpoint all_chars (f : ascii -> bool) (s : string) : bool :=
  match s with
  | EmptyString => true
  | String c s' => f c && all_chars f s'
  end.

(* str.isdigit: non-empty and only digits; used by make_label, optilayer.py 538-550 *)
Definition isdigit (s : string) : bool :=
  match s with EmptyString => false | _ => all_chars isdigit_c s end.

(* [''.join(g) for _, g in itertools.groupby(label, f)] : maximal runs; used by make_label, optilayer.py 538-550 *)
Fixpoint groupby (f : ascii -> bool) (s : string) : list string :=
  match s with
  | EmptyString => []
  | String c s' =>
      match groupby f s' with
      | String d g :: gs =>
          if Bool.eqb (f c) (f d) then String c (String d g) :: gs
          else String c "" :: String d g :: gs
      | gs => String c "" :: gs
      end
  end.

(* int(s) for a string of digits; used by _make_label, optilayer.py 538-550 *)
Definition digit_val (c : ascii) : nat := nat_of_ascii c - 48.
(* with the above, optilayer.py 538-550 *)
Fixpoint int_acc (acc : nat) (s : string) : nat :=
  match s with
  | EmptyString => acc
  | String c s' => int_acc (10 * acc + digit_val c) s'
  end.
(* used by make_label, optilayer.py 538-550 *)
Definition py_int (s : string) : nat := int_acc 0 s.

(* str(n); used by make_label, optilayer.py 538-550 *)
Definition py_str (n : nat) : string := NilEmpty.string_of_uint (Nat.to_uint n).

(* used by make_label, optilayer.py 538-550 *)
Definition mem (s : string) (l : list string) : bool := existsb (String.eqb s) l.

(* optilayer.py 538-550, OptiChild._make_label.  Returns the label and the new
   class attribute _labels.  The recursion of the code has no bound of its own,
   so it takes fuel; running out of fuel is RecursionError. *)
Fixpoint make_label (fuel : nat) (labels : list string) (label : string)
  : result (string * list string) :=
  match fuel with
  | O => Err RecursionError
  | S fuel' =>
      match groupby isalpha label with
      | [] => Err IndexError                                       (* 541 *)
      | g :: gs =>
          let label_split := g :: gs in
          let index := last label_split "" in                      (* 541 *)
          let rest := String.concat "" (removelast label_split) in (* 542 *)
          if isdigit index then                                    (* 543 *)
            if mem label labels then
              make_label fuel' labels (rest ++ py_str (py_int index + 1)) (* 545 *)
            else Ok (label, (labels ++ [label])%list)                  (* 547-548 *)
          else make_label fuel' labels (label ++ py_str 0)         (* 550 *)
      end
  end.

(* A sequence of OptiChild.__init__ calls (optilayer.py 509-510): the labels handed out. *)
Fixpoint make_labels (fuel : nat) (labels : list string) (reqs : list string)
  : result (list string) :=
  match reqs with
  | [] => Ok []
  | r :: rs =>
      match make_label fuel labels r with
      | Err e => Err e
      | Ok (l, labels') =>
          match make_labels fuel labels' rs with
          | Err e => Err e
          | Ok ls => Ok (l :: ls)
          end
      end
  end.

(* optilayer.py 535-536, OptiChild._add_label *)
Definition add_label (name label : string) : string := name ++ "_" ++ label.

(* ---------- children ---------- *)

(* OptiChild state, optilayer.py 509-522: the parts that name symbols, values and
   constraints.  cid is the identity of the object. *)
Record child (V : Type) := mkChild {
  cid : nat;
  clabel : string;
  cvars : list string;              (* keys of _variables *)
  cpars : list string;              (* keys of _parameters *)
  csyms : list string;              (* keys of _symbols *)
  csubs : list string;              (* keys of _substitutes *)
  cvalues : dict string V;          (* _values *)
  cdict : dict string (nat * string)(* symbol_dict *)
}.
Arguments mkChild {V}. Arguments cid {V}. Arguments clabel {V}. Arguments cvars {V}.
Arguments cpars {V}. Arguments csyms {V}. Arguments csubs {V}. Arguments cvalues {V}.
Arguments cdict {V}.

(* optilayer.py 509-522 *)
Definition new_child {V} (id : nat) (label : string) : child V :=
  mkChild id label [] [] [] [] [] [].

(* insertion of a key in an OrderedDict of which only the keys matter; used by define_mx, optilayer.py 610-617 *)
Definition add_key (n : string) (l : list string) : list string :=
  if mem n l then l else (l ++ [n])%list.

(* Which dictionary _define_mx writes to: define_symbol 556, define_variable
   559, define_parameter 563 and their spline versions optilayer.py 567-583. *)
Inductive kind := KVar | KPar | KSym.

(* optilayer.py 610-617, OptiChild._define_mx, with add_to_dict 529-533.
   symvar of a fresh MX symbol is that symbol.  The test of line 531 looks for
   an MX object among string keys and never holds, so it is left out. *)
Definition define_mx {V} (k : kind) (name : string) (value : V) (c : child V) : child V :=
  let d := dset String.eqb (add_label name (clabel c)) (cid c, name) (cdict c) in
  let vs := dset String.eqb name value (cvalues c) in
  match k with
  | KVar => mkChild (cid c) (clabel c) (add_key name (cvars c)) (cpars c) (csyms c) (csubs c) vs d
  | KPar => mkChild (cid c) (clabel c) (cvars c) (add_key name (cpars c)) (csyms c) (csubs c) vs d
  | KSym => mkChild (cid c) (clabel c) (cvars c) (cpars c) (add_key name (csyms c)) (csubs c) vs d
  end.

(* optilayer.py 631-632, OptiChild.set_value *)
Definition set_value {V} (name : string) (value : V) (c : child V) : child V :=
  mkChild (cid c) (clabel c) (cvars c) (cpars c) (csyms c) (csubs c)
    (dset String.eqb name value (cvalues c)) (cdict c).

(* A history of define_* and set_value calls on one child; with optilayer.py 631-632 *)
Inductive op (V : Type) := Define (k : kind) (name : string) (v : V) | SetValue (name : string) (v : V).
Arguments Define {V}. Arguments SetValue {V}.
(* with the above, optilayer.py 631-632 *)
Definition run_op {V} (c : child V) (o : op V) : child V :=
  match o with Define k n v => define_mx k n v c | SetValue n v => set_value n v c end.
(* with the above, optilayer.py 631-632 *)
Definition run_ops {V} (ops : list (op V)) (c : child V) : child V := fold_left run_op ops c.

(* ---------- father: symbols ---------- *)

(* optilayer.py 160-170, OptiFather.__init__ / add: self.children is a
   dictionary keyed by label. *)
Definition father {V} (cs : list (child V)) : dict string (child V) :=
  fold_left (fun d c => dset String.eqb (clabel c) c d) cs [].
(* with the above, optilayer.py 160-170 *)
Definition members {V} (f : dict string (child V)) : list (child V) := map snd f.

(* optilayer.py 200-202, OptiFather.compose_dictionary *)
Definition compose_dictionary {V} (cs : list (child V)) : dict string (nat * string) :=
  fold_left (fun d c => dupdate String.eqb d (cdict c)) cs [].

(* optilayer.py 209-210 *)
Definition defines {V} (n : string) (c : child V) : bool := mem n (cvars c) || mem n (cpars c).

(* optilayer.py 204-223, OptiFather.translate_symbols: the loops over the
   children and their symbols as one loop over the pairs, in the same order. *)
Definition symbol_pairs {V} (cs : list (child V)) : list (child V * string) :=
  flat_map (fun c => map (fun n => (c, n)) (csyms c)) cs.
(* with the above, optilayer.py 204-223 *)
Fixpoint translate {V} (cs : list (child V)) (ps : list (child V * string))
  (d : dict string (nat * string)) : result (dict string (nat * string)) :=
  match ps with
  | [] => Ok d
  | (c, n) :: ps' =>
      match filter (defines n) cs with                    (* 207-211 *)
      | _ :: _ :: _ => Err ValueMultiple                  (* 212-217 *)
      | [] => Err ValueUndefined                          (* 218-221 *)
      | [o] => translate cs ps'
                 (dset String.eqb (add_label n (clabel c)) (cid o, n) d)  (* 223, 172-174 *)
      end
  end.
(* with the above, optilayer.py 204-223 *)
Definition translate_symbols {V} (cs : list (child V)) (d : dict string (nat * string)) :=
  translate cs (symbol_pairs cs) d.

(* What a symbol is replaced with: an entry of the variable or of the parameter
   struct (keyed by child label and name), or the symbol stays as it is; used by substitute_symbol, optilayer.py 285-294 *)
Inductive target := TVar (label name : string) | TPar (label name : string) | TKeep.

(* used by substitute_symbol, optilayer.py 285-294 *)
Definition find_child {V} (cs : list (child V)) (id : nat) : option (child V) :=
  find (fun c => Nat.eqb (cid c) id) cs.

(* optilayer.py 285-294, one round of the loop of _substitute_symbols *)
Definition substitute_symbol {V} (cs : list (child V)) (d : dict string (nat * string))
  (sym : string) : result target :=
  match dget String.eqb sym d with
  | None => Err KeyError                                       (* 289 *)
  | Some (id, name) =>
      match find_child cs id with
      | None => Err KeyError
      | Some c =>
          if mem name (cvars c) then Ok (TVar (clabel c) name)       (* 290-291 *)
          else if mem name (cpars c) then Ok (TPar (clabel c) name)  (* 292-293 *)
          else Ok TKeep
      end
  end.

(* optilayer.py 180-187: the dictionary that construct_problem works with *)
Definition symbol_table {V} (cs : list (child V)) : result (dict string (nat * string)) :=
  translate_symbols cs (compose_dictionary cs).

(* ---------- father: parameters ---------- *)

(* optilayer.py 430-438: collects what the children offer.  offers c is the
   dictionary that child.set_parameters(time) returns (child object -> name ->
   value). *)
Definition offers_t (V : Type) := dict nat (dict string V).

(* with the above, optilayer.py 430-438 *)
Fixpoint collect_one {V} (par : offers_t V) (acc : offers_t V) : result (offers_t V) :=
  match par with
  | [] => Ok acc
  | (chld, dic) :: par' =>
      let acc1 := if dhas Nat.eqb chld acc then acc else dset Nat.eqb chld [] acc in (* 433-434 *)
      let cur := match dget Nat.eqb chld acc1 with Some d => d | None => [] end in
      if existsb (fun key => dhas String.eqb key cur) (map fst dic)                  (* 435-437 *)
      then Err ValueTwice
      else collect_one par' (dset Nat.eqb chld (dupdate String.eqb cur dic) acc1)    (* 438 *)
  end.

(* used by set_parameters, optilayer.py 427-445 *)
Fixpoint collect {V} (offers : child V -> offers_t V) (cs : list (child V)) (acc : offers_t V)
  : result (offers_t V) :=
  match cs with
  | [] => Ok acc
  | c :: cs' =>
      match collect_one (offers c) acc with
      | Err e => Err e
      | Ok acc' => collect offers cs' acc'
      end
  end.

(* optilayer.py 441-444 for one parameter *)
Definition deliver_one {V} (pars : offers_t V) (c : child V) (name : string) : result V :=
  match dget Nat.eqb (cid c) pars with
  | Some dic =>
      match dget String.eqb name dic with
      | Some v => Ok v
      | None => match dget String.eqb name (cvalues c) with Some v => Ok v | None => Err KeyError end
      end
  | None => match dget String.eqb name (cvalues c) with Some v => Ok v | None => Err KeyError end
  end.

(* with the above, optilayer.py 441-444 *)
Fixpoint deliver_names {V} (pars : offers_t V) (c : child V) (names : list string)
  : result (list ((string * string) * V)) :=
  match names with
  | [] => Ok []
  | n :: ns =>
      match deliver_one pars c n with
      | Err e => Err e
      | Ok v => match deliver_names pars c ns with
                | Err e => Err e
                | Ok r => Ok (((clabel c, n), v) :: r)
                end
      end
  end.

(* used by set_parameters, optilayer.py 427-445 *)
Fixpoint deliver {V} (pars : offers_t V) (cs : list (child V))
  : result (list ((string * string) * V)) :=
  match cs with
  | [] => Ok []
  | c :: cs' =>
      match deliver_names pars c (cpars c) with
      | Err e => Err e
      | Ok r => match deliver pars cs' with Err e => Err e | Ok r' => Ok (r ++ r')%list end
      end
  end.

(* optilayer.py 427-445, OptiFather.set_parameters: the entries of _par_result *)
Definition set_parameters {V} (offers : child V -> offers_t V) (cs : list (child V))
  : result (list ((string * string) * V)) :=
  match collect offers cs [] with
  | Err e => Err e
  | Ok pars => deliver pars cs
  end.

(* ---------- constraints ---------- *)

(* l[lo:hi] with Python's rule for negative indices (None is absent); with optilayer.py 427-445 *)
Definition py_clip (len : Z) (i : Z) : Z :=
  let j := if (i <? 0)%Z then (i + len)%Z else i in Z.min (Z.max 0 j) len.
(* with the above, optilayer.py 427-445 *)
Definition py_slice {A} (lo hi : option Z) (l : list A) : list A :=
  let len := Z.of_nat (List.length l) in
  let a := match lo with None => 0%Z | Some i => py_clip len i end in
  let b := match hi with None => len | Some i => py_clip len i end in
  firstn (Z.to_nat b - Z.to_nat a) (skipn (Z.to_nat a) l).

(* optilayer.py 642-661: the coefficients of a spline that are constrained.
   skip = None is the empty list. *)
Definition skip_coeffs {A} (skip : option (Z * Z)) (coeffs : list A) : list A :=
  match skip with
  | None => coeffs                                                  (* 643-646 *)
  | Some (s0, s1) =>
      if (s0 =? 0)%Z then py_slice None (Some (- s1)%Z) coeffs          (* 650-652 *)
      else if (s1 =? 0)%Z then py_slice (Some s0) None coeffs           (* 653-655 *)
      else py_slice (Some s0) (Some (- s1)%Z) coeffs                    (* 657 *)
  end.

(* An expression passed to define_constraint: a Python number, a BSpline with
   its coefficients, or any other MX with its entries; used by define_constraint, optilayer.py 634-666 *)
Inductive cexpr (A : Type) := CNum | CSpline (coeffs : list A) | CMX (entries : list A).
Arguments CNum {A}. Arguments CSpline {A}. Arguments CMX {A}.

(* One entry of _constraints: expression rows, lower and upper bound of every
   row, shutdown condition; used by construct_constraints, optilayer.py 254-272 *)
Record constr (A B : Type) := mkConstr {
  k_rows : list A; k_lb : list B; k_ub : list B; k_shut : option string }.
Arguments mkConstr {A B}. Arguments k_rows {A B}. Arguments k_lb {A B}.
Arguments k_ub {A B}. Arguments k_shut {A B}.

(* The part of an OptiChild that define_constraint works on; used by cinit, optilayer.py 518, 521-522 *)
Record cstate (A B : Type) := mkCS {
  s_cons : dict string (constr A B);   (* _constraints *)
  s_dual : dict string nat;            (* _splines_dual: length of the basis *)
  s_cnt : nat;                         (* _constraint_cnt *)
  s_ncons : nat }.                     (* n_cons *)
Arguments mkCS {A B}. Arguments s_cons {A B}. Arguments s_dual {A B}.
Arguments s_cnt {A B}. Arguments s_ncons {A B}.

(* optilayer.py 518, 521-522 *)
Definition cinit {A B} : cstate A B := mkCS [] [] 0 0.

(* optilayer.py 634-666, OptiChild.define_constraint.  Bounds are scalars that
   are spread over the rows (for an MX expression the code stores the scalar
   and casadi spreads it when the bound struct is filled, 267-268). *)
Definition define_constraint {A B} (e : cexpr A) (lb ub : B) (shut : option string)
  (name : option string) (skip : option (Z * Z)) (s : cstate A B) : cstate A B :=
  match e with
  | CNum => s                                                        (* 635-636 *)
  | _ =>
      let nm := match name with
                | None => "c_" ++ py_str (s_cnt s)                   (* 637-638 *)
                | Some n => n ++ "_" ++ py_str (s_cnt s)             (* 640 *)
                end in
      let cnt := S (s_cnt s) in                                      (* 641 *)
      match e with
      | CSpline coeffs =>
          let rows := skip_coeffs skip coeffs in
          let n := List.length rows in
          mkCS (dset String.eqb nm (mkConstr rows (repeat lb n) (repeat ub n) shut) (s_cons s))
               (dset String.eqb nm (List.length coeffs) (s_dual s)) cnt (s_ncons s + n)
      | CMX rows =>
          let n := List.length rows in
          mkCS (dset String.eqb nm (mkConstr rows (repeat lb n) (repeat ub n) shut) (s_cons s))
               (s_dual s) cnt (s_ncons s + n)
      | CNum => s
      end
  end.

(* optilayer.py 675-686, OptiChild.reset (n_cons is not touched) *)
Definition creset {A B} (s : cstate A B) : cstate A B := mkCS [] [] 0 (s_ncons s).

(* One call of define_constraint with its arguments; with optilayer.py 675-686 *)
Record ccall (A B : Type) := mkCall {
  a_expr : cexpr A; a_lb : B; a_ub : B; a_shut : option string;
  a_name : option string; a_skip : option (Z * Z) }.
Arguments mkCall {A B}. Arguments a_expr {A B}. Arguments a_lb {A B}. Arguments a_ub {A B}.
Arguments a_shut {A B}. Arguments a_name {A B}. Arguments a_skip {A B}.
(* with the above, optilayer.py 675-686 *)
Definition run_call {A B} (s : cstate A B) (c : ccall A B) : cstate A B :=
  define_constraint (a_expr c) (a_lb c) (a_ub c) (a_shut c) (a_name c) (a_skip c) s.
(* with the above, optilayer.py 675-686 *)
Definition run_calls {A B} (cs : list (ccall A B)) (s : cstate A B) : cstate A B :=
  fold_left run_call cs s.

(* optilayer.py 254-272, OptiFather.construct_constraints: the entries of the
   constraint struct with bounds and shutdown conditions, keyed by
   name_label.  cs: label and constraints of every child, in order. *)
Definition construct_constraints {A B} (cs : list (string * dict string (constr A B)))
  : dict string (constr A B) :=
  fold_left (fun d lc =>
    fold_left (fun d nk => dset String.eqb (add_label (fst nk) (fst lc)) (snd nk) d) (snd lc) d)
    cs [].

(* optilayer.py 313-319, OptiFather.update_bounds: bounds per entry at a given
   time.  holds cond: value of the shutdown condition at that time; minf/pinf:
   -inf and +inf.  exec_binds tells whether exec inside a function creates the
   local name shutdown_fun (Python 2) or not (Python 3). *)
Definition update_bounds {A B} (exec_binds : bool) (holds : string -> bool) (minf pinf : B)
  (cons : dict string (constr A B)) : result (dict string (list B * list B)) :=
  if existsb (fun nk => match k_shut (snd nk) with Some _ => true | None => false end) cons
     && negb exec_binds then Err NameError                                   (* 316-317 *)
  else Ok (map (fun nk =>
      let k := snd nk in
      (fst nk,
       match k_shut k with
       | Some cond => if holds cond
                      then (map (fun _ => minf) (k_lb k), map (fun _ => pinf) (k_ub k))
                      else (k_lb k, k_ub k)
       | None => (k_lb k, k_ub k)
       end)) cons).
