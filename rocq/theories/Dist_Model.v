(** Model of the structure of distributed problems and of the iteration
    bookkeeping of the dual methods.

    Code: omgtools/problems/distributedproblem.py 105-169, 181-182 and 221-225,
    omgtools/problems/dualmethod.py 190-243, omgtools/problems/admm.py 586-628,
    omgtools/problems/dualdecomposition.py 279-310.

    A child (vehicle, problem, environment, obstacle) is a pair of the number
    of the updater it belongs to ([child._index], dualmethod.py 54-55) and a
    number that tells the children of one updater apart. *)

From Coq Require Import String List Arith ZArith Bool.
Import ListNotations.
Open Scope string_scope.
Open Scope list_scope.
Open Scope nat_scope.

(** ** Structure *)

Notation child := (nat * nat)%type.

(** One child's part of a constraint's dependencies: variable name to indices
    (distributedproblem.py 114-122). *)
Notation dict := (list (string * list nat))%type.

(** The dependencies of one constraint; what is not a variable of a child
    (parameters, lines 123-126) does not appear. *)
Notation depend := (list (child * dict))%type.

(* used by other_entries, distributedproblem.py 146-159 *)
Definition child_eqb (a b : child) : bool := (fst a =? fst b) && (snd a =? snd b).

(** Keys of the tables [q_i] (updater, child, name) and [q_ij] (updater,
    neighbouring updater, child, name). *)
Notation key1 := (nat * child * string)%type.
Notation key2 := (nat * nat * child * string)%type.

(* used by own_entries, distributedproblem.py 135-143 *)
Definition key1_eqb (a b : key1) : bool :=
  let '(u, c, n) := a in let '(u', c', n') := b in
  (u =? u') && child_eqb c c' && String.eqb n n'.

(* used by other_entries, distributedproblem.py 146-159 *)
Definition key2_eqb (a b : key2) : bool :=
  let '(u, v, c, n) := a in let '(u', v', c', n') := b in
  (u =? u') && (v =? v') && child_eqb c c' && String.eqb n n'.

(* used by isort below: the order in which constraint lists are compared (distributedproblem.py) *)
Fixpoint insert (x : nat) (l : list nat) : list nat :=
  match l with
  | [] => [ x ]
  | y :: r => if x <=? y then x :: l else y :: insert x r
  end.

(** [list.sort]; used by add_indices, distributedproblem.py 138-143 and 154-159 *)
Fixpoint isort (l : list nat) : list nat :=
  match l with
  | [] => []
  | x :: r => insert x (isort r)
  end.

(** distributedproblem.py 140-142 and 156-158: append the indices that are
    not there yet. *)
Definition add_new (l : list nat) (i : nat) : list nat :=
  if existsb (Nat.eqb i) l then l else l ++ [ i ].

(** distributedproblem.py 138-143 and 154-159: one name's entry. *)
Definition add_indices (l is : list nat) : list nat := isort (fold_left add_new is l).

(** Assignment to a table entry; a missing entry reads as the empty list; used by own_entries, distributedproblem.py 135-143 *)
Definition tupd {K : Type} (eqb : K -> K -> bool) (T : K -> list nat) (k : K) (is : list nat)
    : K -> list nat :=
  fun k' => if eqb k' k then add_indices (T k') is else T k'.

(* used by no_tables, distributedproblem.py 106-109 *)
Record tables := mkTables {
  q_i : key1 -> list nat;      (* local variables of an updater *)
  q_ij : key2 -> list nat;     (* remote variables seen from an updater *)
  nghb : nat -> list nat;      (* keys of q_ij, in order of appearance *)
  gcon : nat -> list nat       (* numbers of the constraints of an updater *)
}.

(** distributedproblem.py 106-109 *)
Definition no_tables : tables :=
  mkTables (fun _ => []) (fun _ => []) (fun _ => []) (fun _ => []).

(** distributedproblem.py 135-143: the entries of the child itself. *)
Definition own_entries (T : key1 -> list nat) (c : child) (dic : dict) : key1 -> list nat :=
  fold_left (fun T p => tupd key1_eqb T (fst c, c, fst p) (snd p)) dic T.

(** distributedproblem.py 146-159: the entries of the other children. *)
Definition other_entries (c : child) (T : key2 -> list nat) (q : child * dict) : key2 -> list nat :=
  if child_eqb c (fst q) then T
  else fold_left (fun T p => tupd key2_eqb T (fst c, fst (fst q), fst q, fst p) (snd p)) (snd q) T.

(** distributedproblem.py 146-150: the neighbours. *)
Definition add_nghb (c : child) (T : nat -> list nat) (q : child * dict) : nat -> list nat :=
  if child_eqb c (fst q) then T
  else fun u => if u =? fst c then add_new (T u) (fst (fst q)) else T u.

(** distributedproblem.py 128-159: one child of one constraint. *)
Definition child_step (k : nat) (dep : depend) (T : tables) (p : child * dict) : tables :=
  let '(c, dic) := p in
  mkTables (own_entries (q_i T) c dic)
           (fold_left (other_entries c) dep (q_ij T))
           (fold_left (add_nghb c) dep (nghb T))
           (fun u => if u =? fst c then gcon T u ++ [ k ] else gcon T u).

(** distributedproblem.py 113-159: one constraint. *)
Definition constraint_step (T : tables) (kd : nat * depend) : tables :=
  fold_left (child_step (fst kd) (snd kd)) (snd kd) T.

(** distributedproblem.py 105-159: all constraints, numbered. *)
Definition interprete (cons : list depend) : tables :=
  fold_left constraint_step (combine (seq 0 (length cons)) cons) no_tables.

(** distributedproblem.py 161-163: [upd2.q_ji[upd1] = upd1.q_ij[upd2]]; the
    keys come in the order of the updaters. *)
Definition q_ji (T : tables) (u2 u1 : nat) (c : child) (n : string) : list nat :=
  q_ij T (u1, u2, c, n).

(* with the above, distributedproblem.py 161-163 *)
Definition q_ji_keys (N : nat) (T : tables) (u2 : nat) : list nat :=
  filter (fun u1 => existsb (Nat.eqb u2) (nghb T u1)) (seq 0 N).

(** distributedproblem.py 181-182: the sort key and the (stable) sort. *)
Definition ring_key (N ref i : nat) : nat := if ref <? i then i else i + N.

(* with the above, distributedproblem.py 181-182 *)
Fixpoint insert_by (f : nat -> nat) (x : nat) (l : list nat) : list nat :=
  match l with
  | [] => [ x ]
  | y :: r => if f x <=? f y then x :: l else y :: insert_by f x r
  end.

(* with the above, distributedproblem.py 181-182 *)
Fixpoint sort_by (f : nat -> nat) (l : list nat) : list nat :=
  match l with
  | [] => []
  | x :: r => insert_by f x (sort_by f r)
  end.

(* with the above, distributedproblem.py 181-182 *)
Definition sort_dict (N ref : nat) (keys : list nat) : list nat := sort_by (ring_key N ref) keys.

(** ** Iteration bookkeeping *)

(** Counters and lengths of the histories of a dual method: the iteration
    number (problem.py 38), the objectives and stacked variables (dualmethod.py
    212-213), the residuals (admm.py 623-627) and update times (628). *)
Record counters := mkCounters {
  iteration : Z;
  n_objectives : Z;
  n_stacked : Z;
  n_residuals : Z;
  n_times : Z
}.

(** admm.py 611-628, dualdecomposition.py 298-310: what one dual update does
    to the counters. *)
Definition dual_update (c : counters) : counters :=
  mkCounters (iteration c + 1) (n_objectives c) (n_stacked c) (n_residuals c + 1) (n_times c + 1).

(** dualmethod.py 221-224: the while loop; [None] when the fuel does not
    suffice. *)
Fixpoint solve_loop (fuel : nat) (max_iter it0 : Z) (c : counters) : option counters :=
  if (iteration c - it0 <? max_iter)%Z then
    match fuel with
    | 0 => None
    | S fuel =>
        let c := dual_update c in
        solve_loop fuel max_iter it0
          (mkCounters (iteration c) (n_objectives c + 1) (n_stacked c + 1) (n_residuals c) (n_times c))
    end
  else Some c.

(** dualmethod.py 218-224 *)
Definition solve (fuel : nat) (max_iter : Z) (c : counters) : option counters :=
  solve_loop fuel max_iter (iteration c) c.

(* used by initialize, dualmethod.py 209-216 *)
Fixpoint solves (n fuel : nat) (max_iter : Z) (c : counters) : option counters :=
  match n with
  | 0 => Some c
  | S n => match solve fuel max_iter c with
           | Some c => solves n fuel max_iter c
           | None => None
           end
  end.

(** dualmethod.py 209-216: the histories start again, then [init_iter] calls
    of solve. *)
Definition initialize (init_iter fuel : nat) (max_iter : Z) (c : counters) : option counters :=
  solves init_iter fuel max_iter (mkCounters (iteration c) 0 1 (n_residuals c) (n_times c)).

(** dualmethod.py 238-243: with option max_iter set the method returns True
    or nothing at all (falsy); otherwise it asks the sub-problems
    (distributedproblem.py 221-225: the product of their answers). *)
Definition stop_criterium (max_iter : option Z) (it : Z) (subs : list bool) : bool :=
  match max_iter with
  | Some m => if Z.eqb m 0 then forallb (fun b => b) subs else (m <? it)%Z
  | None => forallb (fun b => b) subs
  end.

(** admm.py 657-664: the number of residuals drawn at plot time [t] (an
    update count) and the number of iteration marks drawn with them. *)
Definition plot_marks (init_iter max_iter t : Z) : Z := init_iter + t * max_iter + 1.
(* with the above, admm.py 657-664 *)
Definition plot_values (n_res init_iter max_iter t : Z) : Z :=
  Z.min n_res (init_iter + t * max_iter + 1).
