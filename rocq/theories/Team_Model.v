(** Several vehicles in one problem: the constraints that keep them apart
    (omgtools/environment/environment.py 148-180 with omgtools/vehicles/
    vehicle.py 122-158, 192-221) and in formation (omgtools/problems/
    formation_central.py 36-81), on the level of coefficients.

    The solver's splines are numbered; var gives the number of component c of
    the variable called n of the object with label l.  A vehicle is given by its
    label, its number of shapes and its first shape, and by the expressions for
    its position (and the tangent of half its heading) in each segment.

    Simplifications: as in Lift_Model; room constraints (vehicle.py 159-190,
    222-232), which do not depend on other vehicles, are left out (Room
    properties); all checkpoints of a shape have the same radius; vehicles are
    the same object exactly when they have the same label. *)
From Coq Require Import Reals List Arith String.
From Verif Require Import Spline_Model Splop_Model Vehicle_Model Lift_Model Opti_Model.
From Verif Require Fleet_Model.
Import ListNotations.
Local Open Scope list_scope.
Local Notation length := List.length.
Local Open Scope R_scope.

(** vehicle.py 122-131, 192-200: what define_collision_constraints gets: the
    checkpoints and the radius of the first shape, the position per segment
    (for a planar vehicle with the tangent of half the heading and the offset) *)
Inductive body :=
| Planar (chk : list (R * R)) (rad : R) (x y tg : nat -> sx) (off : R)
| Space (chk : list (R * R * R)) (rad : R) (x y z : nat -> sx).
(** vehicle.py 39-69: label, number of shapes, safety_distance *)
Record member := Member { m_label : string; m_shapes : nat; m_sd : R; m_body : body }.
(** vehicle.py 44: n_dim *)
Definition m_dim (v : member) : nat := match m_body v with Planar _ _ _ _ _ _ => 2 | Space _ _ _ _ _ => 3 end%nat.

(** environment.py 153-157: the pairs of different vehicles, in order *)
Fixpoint couples (vs : list member) : list (member * member) :=
  match vs with
  | [] => []
  | v :: r => map (pair v) (filter (fun w => negb (String.eqb (m_label v) (m_label w))) r) ++ couples r
  end.
(** environment.py 166-172: the names of the variables of one hyperplane *)
Definition inter_name (p : string) (idx : nat) (v : member) (kk : nat) (w : member) (ll : nat) : string :=
  (p ++ "_" ++ m_label v ++ "_" ++ "seg" ++ py_str idx ++ "_" ++ py_str kk ++ "_" ++ m_label w ++ "_" ++ py_str ll)%string.
(** environment.py 130-134: those of a hyperplane between a vehicle and an
    obstacle *)
Definition obst_name (p : string) (idx : nat) (v : member) (k l : nat) : string :=
  (p ++ "_" ++ m_label v ++ "_" ++ "seg" ++ py_str idx ++ "_" ++ py_str k ++ py_str l)%string.
(** vehicle.py 138-139, 212-213: the name of the slack of hyperplane k of shape s *)
Definition eps_name (s k : nat) : string := ("eps_" ++ py_str s ++ py_str k)%string.

(** environment.py 164-178: a hyperplane: the components of a, then b *)
Definition hyper := (list sx * sx)%type.
(* with the above, environment.py 178 *)
Definition opposite (h : hyper) : hyper := (map SNeg (fst h), SNeg (snd h)).

Section Team.
(** numbers of the solver's splines, see above (optilayer.py 567-579) *)
Variable var : string -> string -> nat -> nat.
(** the label and the dimension of the environment (environment.py 36-55) *)
Variable env : string.
(* with the above, environment.py 43-50 *)
Variable n_dim : nat.

(** environment.py 166-172: the variables a and b *)
Definition plane (idx : nat) (v : member) (kk : nat) (w : member) (ll : nat) : hyper :=
  (map (fun c => SV (var env (inter_name "a" idx v kk w ll) c) 0) (seq 0 n_dim),
   SV (var env (inter_name "b" idx v kk w ll) 0) 0).
(** environment.py 164-165: the pairs of shapes *)
Definition shape_pairs (v w : member) : list (nat * nat) :=
  flat_map (fun kk => map (pair kk) (seq 0 (m_shapes w))) (seq 0 (m_shapes v)).
(** environment.py 173-174: the norm of a; sum starts at 0 *)
Definition norm_of (h : hyper) : sx := (fold_left (fun acc a => acc + a * a) (fst h) (SN 0) - SN 1)%sx.
(* with the above, environment.py 173-174 *)
Definition norm_cons (idx : nat) (vs : list member) : list con :=
  flat_map (fun p => map (fun s => le0 (norm_of (plane idx (fst p) (fst s) (snd p) (snd s)))) (shape_pairs (fst p) (snd p)))
           (couples vs).
(** environment.py 152, 175-178: hyp_veh[vehicle][shape] for the vehicle with
    label l and its shape number sh *)
Definition hyps (idx : nat) (vs : list member) (l : string) (sh : nat) : list hyper :=
  flat_map (fun p => flat_map (fun s =>
    let h := plane idx (fst p) (fst s) (snd p) (snd s) in
    (if (String.eqb (m_label (fst p)) l && (fst s =? sh)%nat)%bool then [h] else []) ++
    (if (String.eqb (m_label (snd p)) l && (snd s =? sh)%nat)%bool then [opposite h] else []))
    (shape_pairs (fst p) (snd p))) (couples vs).

(** vehicle.py 137-146, 209-218: the slack of hyperplane k; 0 without a safety
    distance *)
Definition slack (v : member) (k : nat) : sx :=
  if Rlt_dec 0 (m_sd v) then SV (var (m_label v) (eps_name 0 k) 0) 0 else SN 0.
(* with the above, vehicle.py 143-144, 217-218 *)
Definition slack_cons (v : member) (k : nat) : list con :=
  if Rlt_dec 0 (m_sd v) then eps_cons (m_sd v) (slack v k) else [].
(** vehicle.py 147-158 (planar), 219-221 (in space): one hyperplane *)
Definition side_cons (idx : nat) (v : member) (k : nat) (h : hyper) : list con :=
  let a i := nth i (fst h) (SN 0) in
  match m_body v with
  | Planar chk rad x y tg off =>
      map (fun c => le0 (veh_sx (a 0%nat) (a 1%nat) (snd h) (fst c) (snd c) rad (SN 1) (m_sd v) (slack v k)
                                (x idx) (y idx) (tg idx) off)) chk
  | Space chk rad x y z =>
      map (fun c => le0 (veh3_sx (a 0%nat) (a 1%nat) (a 2%nat) (snd h) c rad (m_sd v) (slack v k) (x idx) (y idx) (z idx))) chk
  end.
(** vehicle.py 122-158, 192-221: all hyperplanes of a vehicle; with two or more
    shapes positions[1] raises (line 130, 200), as positions has one entry *)
Definition veh_cons (idx : nat) (v : member) (hs : list hyper) : option (list con) :=
  match m_shapes v with
  | O => Some []
  | 1%nat => Some (flat_map (fun p => slack_cons v (fst p) ++ side_cons idx v (fst p) (snd p)) (combine (seq 0 (length hs)) hs))
  | _ => None
  end.
(** a list of results, None if one of them raises (the loop in environment.py
    179-181) *)
Fixpoint gather {A} (l : list (option (list A))) : option (list A) :=
  match l with
  | [] => Some []
  | None :: _ => None
  | Some x :: r => match gather r with Some y => Some (x ++ y) | None => None end
  end.
(** environment.py 148-181: vehicles of different dimension raise (158-160) *)
Definition inter_seg (idx : nat) (vs : list member) : option (list con) :=
  if forallb (fun p => (m_dim (fst p) =? m_dim (snd p))%nat) (couples vs)
  then match gather (map (fun v => veh_cons idx v (hyps idx vs (m_label v) 0)) vs) with
       | Some cs => Some (norm_cons idx vs ++ cs)
       | None => None
       end
  else None.
(* with the above, environment.py 151 *)
Definition inter (n_seg : nat) (vs : list member) : option (list con) :=
  gather (map (fun idx => inter_seg idx vs) (seq 0 n_seg)).
(** environment.py 102-106, point2point.py 53-62: the vehicles are first checked
    against the dimension of the environment *)
Definition apart_cons (n_seg : nat) (vs : list member) : option (list con) :=
  if forallb (fun v => (m_dim v =? n_dim)%nat) vs then inter n_seg vs else None.
End Team.

(** ** Formation *)
(** vehicle.py 234-240: component k of the fleet centre as a vehicle sees it;
    pos k is its spline k, conf its configuration (fleet.py 93-98) *)
Definition centre_sx (pos : nat -> sx) (conf : list R) (k : nat) : sx :=
  (pos k + SN (nth k (Fleet_Model.rel_pos_c conf) 0))%sx.
(** formation_central.py 81: the constraint of one couple *)
Definition keep_con (pos : nat -> nat -> sx) (conf : nat -> list R) (d : nat) (p : nat * nat) : list con :=
  map (fun k => Con (centre_sx (pos (fst p)) (conf (fst p)) k - centre_sx (pos (snd p)) (conf (snd p)) k)%sx (Some 0) 0)
      (seq 0 d).
(** formation_central.py 72: the name of the slack of a soft formation *)
Definition form_name (k l : nat) : string := ("eps_form_" ++ py_str k ++ py_str l)%string.
(** formation_central.py 69-79: a soft formation; dev is max_formation_deviation,
    None for inf; slack name gives the spline of the problem's variable *)
Definition soft_con (eps : string -> sx) (dev : option R) (pos : nat -> nat -> sx) (conf : nat -> list R) (d : nat)
    (p : nat * nat) : list con :=
  flat_map (fun k =>
    let cv := centre_sx (pos (fst p)) (conf (fst p)) k in let cn := centre_sx (pos (snd p)) (conf (snd p)) k in
    let e := eps (form_name k k) in
    [ le0 (cv - cn - e); le0 (- cv + cn - e) ]%sx ++
    match dev with None => [] | Some m => [ Con e (Some (- Rabs m)) (Rabs m) ] end) (seq 0 d).
(** formation_central.py 62-81: all couples *)
Definition central_cons (soft : option (option R * (string -> sx))) (interconnection : string) (N d : nat)
    (pos : nat -> nat -> sx) (conf : nat -> list R) : option (list con) :=
  match Fleet_Model.neighbours interconnection N with
  | None => None
  | Some nb =>
      match Fleet_Model.central_couples interconnection nb N with
      | None => None
      | Some c => Some (flat_map (match soft with
                                  | None => keep_con pos conf d
                                  | Some (dev, eps) => soft_con eps dev pos conf d
                                  end) (Fleet_Model.pairs_of N c))
      end
  end.
