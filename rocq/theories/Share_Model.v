(** What the updaters of a dual method share, and how a distributed problem is
    put together and used: the structured vectors and their transformation,
    the groups that share a build, the prediction and the formation error.
    Sources: omgtools/problems/dualmethod.py 27-39 and 83-177,
    omgtools/problems/distributedproblem.py 60-103 and 196-214,
    omgtools/vehicles/fleet.py 177-185,
    omgtools/problems/problem.py 138-163, omgtools/problems/formation.py 74-101.

    Simplifications.  A nested dictionary is the list of its leaves with their
    paths (neighbour, child, name or child, name), in the order of insertion;
    objects are their labels.  The three kinds of values (SX, MX, DM) are lists
    of exact reals.  isinstance(var, struct) is taken to hold for the values of
    the structures.  The broadcasting of scalars by casadi is left out: a value
    of a wrong length raises.  Basis and transformation of a leaf are arguments.
    A raised exception is None. *)
From Coq Require Import Reals QArith ZArith String List Bool Arith.
From Verif Require Import Vehicle_Model.
From Verif Require Timing_Model.
Import ListNotations.
Local Open Scope list_scope.
Local Open Scope nat_scope.
Local Notation length := List.length.

(** ** structured vectors *)

(** the labels on the way to a leaf; dualmethod.py 83-104 *)
Definition path := list string.
(* used by find, dualmethod.py 95-96 *)
Definition path_eqb (a b : path) : bool := if list_eq_dec string_dec a b then true else false.
(** q_i, q_ij or q_ji: the indices of every shared variable;
    distributedproblem.py 130-159 *)
Definition shared := list (path * list nat).
(** dualmethod.py 27-39: the number of entries of a leaf and of the whole *)
Definition size (q : shared) : nat := fold_right (fun e s => length (snd e) + s) 0 q.
(** dualmethod.py 27-39: where a leaf starts and how long it is *)
Fixpoint place (q : shared) (k : path) : option (nat * nat) :=
  match q with
  | [] => None
  | (p, ind) :: r =>
    if path_eqb p k then Some (0, length ind)
    else match place r k with None => None | Some (o, n) => Some (length ind + o, n) end
  end.
(** var[nghb, child, name] and var[child, name]; dualmethod.py 95-96, 103 *)
Definition sget (q : shared) (v : list R) (k : path) : option (list R) :=
  match place q k with None => None | Some (o, n) => Some (firstn n (skipn o v)) end.
(** ret[nghb, child, name] = w and ret[child, name] = w; dualmethod.py 120, 132 *)
Definition sset (q : shared) (v : list R) (k : path) (w : list R) : option (list R) :=
  match place q k with
  | None => None
  | Some (o, n) => if (length w =? n) then Some (firstn o v ++ w ++ skipn (o + n) v) else None
  end.

(** a dictionary of values; dualmethod.py 89-97 *)
Definition values := list (path * list R).
(* used by transform, dualmethod.py 174 *)
Fixpoint find (d : values) (k : path) : option (list R) :=
  match d with [] => None | (p, w) :: r => if path_eqb p k then Some w else find r k end.
(** d[k] = w; dualmethod.py 95, 103, 176 *)
Fixpoint put (d : values) (k : path) (w : list R) : values :=
  match d with
  | [] => [(k, w)]
  | (p, u) :: r => if path_eqb p k then (p, w) :: r else (p, u) :: put r k w
  end.

(** dualmethod.py 83-104; keys()[0] raises for an empty dictionary (88) *)
Definition struct2dict (q : shared) (v : list R) : option values :=
  match q with
  | [] => None
  | _ => fold_left (fun d e => match d, sget q v (fst e) with
                               | Some d, Some w => Some (put d (fst e) w)
                               | _, _ => None
                               end) q (Some [])
  end.
(** 'dd' in label or 'admm' in label; dualmethod.py 109 *)
Definition has (sub s : string) : bool := match index 0 sub s with Some _ => true | None => false end.
(* the first label; dualmethod.py 109 *)
Definition marked (d : values) : bool :=
  match d with
  | (l :: _, _) :: _ => has "dd" l || has "admm" l
  | _ => false
  end.
(** dualmethod.py 106-133; the number of levels is told by the first label: the
    values of a leaf raise (110), a dictionary is neither SX, MX nor DM (124-129) *)
Definition dict2struct (q : shared) (d : values) : option (list R) :=
  match d with
  | [] => None
  | (p, _) :: _ =>
    if (length p =? (if marked d then 3 else 2)) then
      fold_left (fun v e => match v with None => None | Some v => sset q v (fst e) (snd e) end)
                d (Some (repeat 0%R (size q)))
    else None
  end.

(** dualmethod.py 135-147: the entries of a variable, column after column, at
    the shared indices; [m] is the list of its rows.  var.T.ravel() *)
Definition ravel (cols : nat) (m : list (list R)) : list R :=
  flat_map (fun j => map (fun row => nth j row 0%R) m) (seq 0 cols).
(** dualmethod.py 144, 146 *)
Definition picked (cols : nat) (m : list (list R)) (ind : list nat) : list R :=
  map (fun i => nth i (ravel cols m) 0%R) ind.

(** ** transformation of the shared splines *)

(** dualmethod.py 170-176: spline number [l] of a leaf, if all its coefficients
    are shared; the slice starts at l*len(basis) - ind[0] *)
Definition spline_step (tf : list R -> option (list R)) (n : nat) (ind : list nat) (v : option (list R)) (l : nat)
  : option (list R) :=
  match v with
  | None => None
  | Some v =>
    if forallb (fun i => existsb (Nat.eqb i) ind) (seq (l * n) n) then
      let a := l * n - hd 0 ind in
      if (a + n <=? length v) then
        match tf (firstn n (skipn a v)) with
        | None => None
        | Some w => if (length w =? n) then Some (firstn a v ++ w ++ skipn (a + n) v) else None
        end
      else None
    else Some v
  end.
(** dualmethod.py 169-176: range(len(basis)) *)
Definition transform_leaf (tf : list R -> option (list R)) (n : nat) (ind : list nat) (v : list R) : option (list R) :=
  fold_left (spline_step tf n ind) (seq 0 n) (Some v).
(** dualmethod.py 158-177: every leaf that is a spline variable; [spl] gives the
    number of coefficients and the transformation for the basis of a leaf *)
Definition transform (spl : path -> option (nat * (list R -> option (list R)))) (q : shared) (d : values) : option values :=
  fold_left (fun d e =>
    match d with
    | None => None
    | Some d =>
      match spl (fst e) with
      | None => Some d
      | Some (n, tf) =>
        match find d (fst e) with
        | None => None
        | Some v => match transform_leaf tf n (snd e) v with None => None | Some w => Some (put d (fst e) w) end
        end
      end
    end) q (Some d).
(** dualmethod.py 154-157 *)
Definition transform_struct (spl : path -> option (nat * (list R -> option (list R)))) (q : shared) (v : list R)
  : option (list R) :=
  match struct2dict q v with
  | None => None
  | Some d => match transform spl q d with None => None | Some d => dict2struct q d end
  end.

(** ** groups that share a build *)

(** fleet.py 177-185 and distributedproblem.py 92-97: a dictionary of lists in
    the order of insertion *)
Fixpoint file_under {K : Type} (eqb : K -> K -> bool) (k : K) (x : nat) (d : list (K * list nat)) : list (K * list nat) :=
  match d with
  | [] => [(k, [x])]
  | (j, l) :: r => if eqb j k then (j, l ++ [x]) :: r else (j, l) :: file_under eqb k x r
  end.
(* fleet.py 179-185, distributedproblem.py 93-97 *)
Definition group {K : Type} (eqb : K -> K -> bool) (key : nat -> K) (l : list nat) : list (K * list nat) :=
  fold_left (fun d x => file_under eqb (key x) x d) l [].
(** distributedproblem.py 88-103: by class and number of neighbours; vehicles
    and updaters are numbered alike (dualmethod.py 54-55) *)
Definition builds (kind : nat -> string) (nghbs : nat -> nat) (N : nat) : list (string * nat * list nat) :=
  flat_map (fun tv => map (fun ru => (fst tv, fst ru, snd ru)) (group Nat.eqb nghbs (snd tv)))
           (group String.eqb kind (seq 0 N)).
(** distributedproblem.py 72-86: the updater whose problems every updater uses *)
Definition builder (kind : nat -> string) (nghbs : nat -> nat) (N u : nat) : option nat :=
  match List.find (fun g => existsb (Nat.eqb u) (snd g)) (builds kind nghbs N) with
  | Some (_, x :: _) => Some x
  | _ => None
  end.

(** ** prediction *)

(** what Vehicle.predict receives; problem.py 163 *)
Record vargs (S I : Type) := VArgs {
  v_state : option S; v_input : option I + Z; v_delay : Z; v_enforce_state : bool; v_enforce_input : bool }.
Arguments VArgs {S I}. Arguments v_state {S I}. Arguments v_input {S I}. Arguments v_delay {S I}.
Arguments v_enforce_state {S I}. Arguments v_enforce_input {S I}.
(** problem.py 138-163 for a problem with one vehicle whose state is given as an
    array or not at all *)
Definition predict_one {S I : Type} (start now : Q) (state : option S) (input : option I + Z) (delay : Z) (es ei : bool) : vargs S I :=
  VArgs state input delay (if Qeq_bool now start then true else es) ei.
(** distributedproblem.py 196-200: the delay is passed in the place of the
    inputs; zip stops at the shorter list *)
Definition dist_predict {S I : Type} (starts : list Q) (now : Q) (states : option (list (option S)))
  (inputs : option (list (option I))) (delay : Z) (es ei : bool) : list (vargs S I) :=
  let ss := match states with None => repeat None (length starts) | Some l => l end in
  map (fun p => predict_one (fst p) now (snd p) (inr delay) 0 false false) (combine starts ss).
(** vehicle.py 322-325: the column of the trajectories that an ideal prediction takes *)
Definition predicted_column {S I : Type} (predict_time sample_time : Q) (a : vargs S I) : Z :=
  (Timing_Model.n_samp predict_time sample_time + v_delay a)%Z.

(** ** formation error *)
Local Open Scope R_scope.
(** one vehicle: signals['fleet_center'] and the position in signals['pose'], one
    column per sample, its configuration, and signals['time'];
    formation.py 79-88 *)
Record car := mkCar { centre : list (list R); spot : list (list R); config : list R; stamp : list R }.
(** np.mean; formation.py 92 *)
Definition mean (l : list R) : R := fold_right Rplus 0 l / INR (length l).
(** formation.py 89-92: column [k] of center *)
Definition fleet_mean (cs : list car) (k : nat) : list R :=
  map (fun l => mean (map (fun c => nth l (nth k (spot c) []) 0) cs))
      (seq 0 (length (nth k (spot (hd (mkCar [] [] [] []) cs)) []))).
(** formation.py 93-98: error[k] *)
Definition sample_error (cs : list car) (k : nat) : R :=
  fold_right (fun c e => norm (vsub (fleet_mean cs k) (nth k (centre c) [])) / norm (config c) + e) 0 cs / INR (length cs).
(** formation.py 74-101; number of samples, sample time and end time are those
    of the last vehicle (86-88); a single sample raises (88) *)
Definition interaction_error (cs : list car) : option R :=
  let t := stamp (last cs (mkCar [] [] [] [])) in
  let n := length t in
  if (n <? 2)%nat then None
  else
    let Ts := nth 1 t 0 - nth 0 t 0 in
    Some (fold_right (fun k e => 1 / 2 * (sample_error cs (S k) + sample_error cs k) * Ts + e) 0 (seq 0 (n - 1)) / last t 0).
