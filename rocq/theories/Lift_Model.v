(** From spline expressions to the constraints on coefficients that the solver
    sees: the operators of omgtools/basics/spline.py applied to the expressions
    that vehicles, obstacles and the environment write, and define_constraint
    of omgtools/basics/optilayer.py.

    Simplifications.  Numbers are exact reals, symbolic CasADi coefficients
    behave as numbers, scipy.linalg.solve is exact elimination (Splop_Model);
    None where an operation raises.  The splines of an expression are numbered
    (Vehicle_Model.sx). *)
From Coq Require Import Reals List Arith Bool ZArith.
From Verif Require Import Spline_Model Splop_Model Vehicle_Model.
Import ListNotations.
Local Open Scope R_scope.

(** a value in an expression: a number (float or CasADi scalar) or a BSpline
    (the two branches of isinstance(other, self.__class__), spline.py 396-407) *)
Inductive pyobj := Num (r : R) | Spl (s : bspline).

(** spline.py 395-408: __add__ and __radd__ *)
Definition o_add (tol : R) (a b : pyobj) : option pyobj :=
  match a, b with
  | Spl s, Spl t => match add_spline tol s t with Some u => Some (Spl u) | None => None end
  | Spl s, Num r => Some (Spl (add_num s r))
  | Num r, Spl s => Some (Spl (add_num s r))
  | Num r, Num q => Some (Num (r + q))
  end.
(** spline.py 410-411: __neg__ *)
Definition o_neg (a : pyobj) : pyobj :=
  match a with Spl s => Spl (neg s) | Num r => Num (- r) end.
(** spline.py 413-417: __sub__ and __rsub__: the sum with the opposite *)
Definition o_sub (tol : R) (a b : pyobj) : option pyobj := o_add tol a (o_neg b).
(** spline.py 419-446: __mul__ and __rmul__ *)
Definition o_mul (tol : R) (a b : pyobj) : option pyobj :=
  match a, b with
  | Spl s, Spl t => match mul_spline tol s t with Some u => Some (Spl u) | None => None end
  | Spl s, Num r => Some (Spl (mul_num s r))
  | Num r, Spl s => Some (Spl (mul_num s r))
  | Num r, Num q => Some (Num (r * q))
  end.
(** spline.py 448-456: __pow__ *)
Definition o_pow (tol : R) (a : pyobj) (n : nat) : option pyobj :=
  match a with
  | Spl s => match pow_spline tol s (Z.of_nat n) with Some u => Some (Spl u) | None => None end
  | Num r => Some (Num (r ^ n))
  end.
(** the value of an expression, operator by operator (spline.py 395-456) *)
Fixpoint build (tol : R) (X : nat -> bspline) (e : sx) : option pyobj :=
  let two f a b := match build tol X a, build tol X b with
                   | Some u, Some v => f u v | _, _ => None end in
  match e with
  | SV i o => Some (Spl (derivative (X i) o))
  | SN r => Some (Num r)
  | SAdd a b => two (o_add tol) a b
  | SSub a b => two (o_sub tol) a b
  | SMul a b => two (o_mul tol) a b
  | SNeg a => match build tol X a with Some u => Some (o_neg u) | None => None end
  | SPow a n => match build tol X a with Some u => o_pow tol u n | None => None end
  end.

(** optilayer.py 634-663: the entries handed to the solver.  skip is None for
    an empty list; l[:-0] is empty *)
Definition kept (skip : option (nat * nat)) (c : list R) : list R :=
  match skip with
  | None => c
  | Some (O, s1) => match s1 with O => [] | _ => firstn (length c - s1) c end
  | Some (s0, O) => skipn s0 c
  | Some (s0, s1) => skipn s0 (firstn (length c - s1) c)
  end.
(** optilayer.py 634-663: an expression that is a plain number is ignored
    (lines 635-636); of a spline the (kept) coefficients are constrained *)
Definition entries (skip : option (nat * nat)) (o : pyobj) : list R :=
  match o with Spl s => kept skip (coeffs s) | Num _ => [] end.
(** the solver keeps every entry between lb and ub; lb None is -inf
    (optilayer.py 643-645, 656-658, 663) *)
Definition admitted_by (lo : option R) (hi : R) (l : list R) : Prop :=
  forall v, In v l -> match lo with None => True | Some b => b <= v end /\ v <= hi.
(** a solution satisfies the constraints cs: the expressions can be built and
    their coefficients are within the bounds (optilayer.py 634-663) *)
Definition solved_skip (skip : option (nat * nat)) (tol : R) (X : nat -> bspline) (cs : list con) : Prop :=
  forall c, In c cs -> exists o, build tol X (cexpr c) = Some o /\
    admitted_by (clo c) (chi c) (entries skip o).
(* with the above, optilayer.py 634-663 *)
Definition solved (tol : R) (X : nat -> bspline) (cs : list con) : Prop := solved_skip None tol X cs.

(** point2point.py 64-70: the start constraints: evalspline(spline, t0) minus
    the condition is kept at 0; tuples as in Vehicle_Model.init_constraint,
    the condition being a number *)
Definition starts (tol : R) (X : nat -> bspline) (tau : R) (tuples : list (list sx)) : Prop :=
  forall tup, In tup tuples -> exists s r, build tol X (nth 0 tup (SN 0)) = Some (Spl s) /\
    nth 1 tup (SN 0) = SN r /\ evalspline s tau - r = 0.
(** point2point.py 290-298: the terminal constraints: spline(1.) minus the
    condition is kept at 0 *)
Definition stops (tol : R) (X : nat -> bspline) (cs : list (sx * R)) : Prop :=
  forall c, In c cs -> exists s, build tol X (fst c) = Some (Spl s) /\ call s 1 - snd c = 0.

(** vehicle.py 147-158: the obstacle avoidance constraint of one checkpoint;
    con starts at 0 and is increased term by term *)
Definition veh_sx (a0 a1 b : sx) (c0 c1 rad : R) (sl : sx) (sd : R) (eps x y tg : sx) (off : R) : sx :=
  let pos0 := (x * (SN 1 + tg ^ 2) + SN off * (SN 1 - tg ^ 2))%sx in
  let pos1 := (y * (SN 1 + tg ^ 2) + SN off * (SN 2 * tg))%sx in
  (SN 0 + (a0 * SN c0 + a1 * SN c1) * (SN 1 - tg ^ 2)
        + (- a0 * SN c1 + a1 * SN c0) * (SN 2 * tg)
        + (a0 * pos0 + a1 * pos1)
        + (- b + sl * SN rad + SN sd - eps) * (SN 1 + tg ^ 2))%sx.
(** environment.py 137-138: the norm of the normal vector; sum starts at 0 *)
Definition norm_sx (a0 a1 : sx) : sx := (SN 0 + a0 * a0 + a1 * a1 - SN 1)%sx.
(** obstacle.py 334-343: the obstacle's side of the hyperplane *)
Definition obs_sx (a0 a1 b : sx) (c0 c1 rad : R) (px py cs sn w : sx) : sx :=
  let xpos := (px * w + SN c0 * cs - SN c1 * sn)%sx in
  let ypos := (py * w + SN c0 * sn + SN c1 * cs)%sx in
  (- (a0 * xpos + a1 * ypos) + w * (b + SN rad))%sx.
(** vehicle.py 137-146: the slack on the safety distance, if there is one *)
Definition eps_cons (sd : R) (eps : sx) : list con := [ le0 (eps - SN sd); le0 (- eps) ].
(** vehicle.py 174-177: room constraints of one checkpoint *)
Definition room_sx (lims : (R * R) * (R * R)) (rx ry : R) (c0 c1 rad : R) (x y : sx) : list con :=
  [ le0 (- (SN c0 + x) + SN (fst (fst lims) + rx) + SN rad);
    le0 ((SN c0 + x) - SN (snd (fst lims) + rx) + SN rad);
    le0 (- (SN c1 + y) + SN (fst (snd lims) + ry) + SN rad);
    le0 ((SN c1 + y) - SN (snd (snd lims) + ry) + SN rad) ]%sx.
(** vehicle.py 219-221, obstacle.py 528-533, environment.py 137-138 in space *)
Definition veh3_sx (a0 a1 a2 b : sx) (c : R * R * R) (rad sd : R) (eps x y z : sx) : sx :=
  (SN 0 + a0 * (SN (fst (fst c)) + x) + a1 * (SN (snd (fst c)) + y) + a2 * (SN (snd c) + z)
   - b + SN rad + SN sd - eps)%sx.
(* with the above, obstacle.py 528-533 *)
Definition obs3_sx (a0 a1 a2 b : sx) (c : R * R * R) (rad : R) (x y z : sx) : sx :=
  (- (SN 0 + a0 * (SN (fst (fst c)) + x) + a1 * (SN (snd (fst c)) + y) + a2 * (SN (snd c) + z)) + b + SN rad)%sx.
(* with the above, environment.py 137-138 *)
Definition norm3_sx (a0 a1 a2 : sx) : sx := (SN 0 + a0 * a0 + a1 * a1 + a2 * a2 - SN 1)%sx.
