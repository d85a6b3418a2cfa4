(** Vehicles, first part: spline expressions, the holonomic vehicles, the
    machine tool and the arrival tests (omgtools/vehicles).

    Simplifications for the whole file.  Numbers are exact reals.  A
    constraint given to define_constraint is an expression over the splines of
    the vehicle; it is kept as an expression tree [sx], and what is modelled is
    its value at one normalised time.  That the coefficients of the constraint
    spline bound this value is property C25 of optilayer.py.  The options
    [syslimit] and [vel_limit] are compared with `is` in the code; the model
    compares values. *)
From Coq Require Import Reals List Arith Bool String.
From Verif Require Import Angle_Model.
Import ListNotations.
Open Scope R_scope.

(** Expressions over splines: [SV i o] is the o-th derivative of the i-th
    spline of the vehicle (Spline.derivative, spline.py 464-469), the other
    cases are the operators of class Spline (spline.py 395-453). *)
Inductive sx :=
| SV (i o : nat)
| SN (r : R)
| SAdd (a b : sx)
| SSub (a b : sx)
| SMul (a b : sx)
| SNeg (a : sx)
| SPow (a : sx) (n : nat).

(** a jet gives the values of a spline and its derivatives at one time; used by holonomic_state, holonomic.py 165-175 *)
Definition jet := nat -> R.

(* with the above, spline.py 464-469 *)
Fixpoint sval (env : nat -> jet) (e : sx) : R :=
  match e with
  | SV i o => env i o
  | SN r => r
  | SAdd a b => sval env a + sval env b
  | SSub a b => sval env a - sval env b
  | SMul a b => sval env a * sval env b
  | SNeg a => - sval env a
  | SPow a n => sval env a ^ n
  end.

Declare Scope sx_scope.
Delimit Scope sx_scope with sx.
Bind Scope sx_scope with sx.
Notation "a + b" := (SAdd a b) : sx_scope.
Notation "a - b" := (SSub a b) : sx_scope.
Notation "a * b" := (SMul a b) : sx_scope.
Notation "- a" := (SNeg a) : sx_scope.
Notation "a ^ n" := (SPow a n) : sx_scope.

(** optilayer.py: define_constraint(expr, lb, ub); a lower bound None is -inf; used by init_constraint, point2point.py 64-70 *)
Record con := Con { cexpr : sx; clo : option R; chi : R }.
(* with the above, spline.py 464-469 *)
Definition le0 (e : sx) : con := Con e None 0.

(** point2point.py 64-70 (same in gcodeproblem 88-95 and multiframeproblem
    92-100): define_init_constraints.  get_initial_constraints returns a list
    of tuples, of which con[0] and con[1] are used; tuple members are spline
    expressions, numbers are [SN].  The constraint is evaluated at t/T. *)
Definition init_constraint (tuple : list sx) : con :=
  Con (nth 0 tuple (SN 0) - nth 1 tuple (SN 0)) (Some 0) 0.
(** point2point.py 290-298: the terminal constraints, evaluated at 1 *)
Definition term_constraint (c : sx * R) : con := Con (fst c - SN (snd c)) (Some 0) 0.

(** ** Holonomic *)

(** holonomic.py 34-56: the bounds dictionary as used by __init__ *)
Record hbounds := HB {
  b_vxmin : option R; b_vymin : option R; b_vxmax : option R; b_vymax : option R;
  b_axmin : option R; b_aymin : option R; b_axmax : option R; b_aymax : option R;
  b_vmin : option R; b_vmax : option R; b_amin : option R; b_amax : option R }.
(* with the above, holonomic.py 34-56 *)
Record hlimits := HL {
  vxmin : R; vymin : R; vxmax : R; vymax : R; axmin : R; aymin : R; axmax : R; aymax : R }.
(* with the above, holonomic.py 34-56 *)
Definition dflt (o : option R) (d : R) : R := match o with Some v => v | None => d end.
(** holonomic.py 37-53: separate limits, overwritten by the common ones *)
Definition holonomic_limits (b : hbounds) : hlimits :=
  HL (dflt (b_vmin b) (dflt (b_vxmin b) (-1/2))) (dflt (b_vmin b) (dflt (b_vymin b) (-1/2)))
     (dflt (b_vmax b) (dflt (b_vxmax b) (1/2))) (dflt (b_vmax b) (dflt (b_vymax b) (1/2)))
     (dflt (b_amin b) (dflt (b_axmin b) (-1))) (dflt (b_amin b) (dflt (b_aymin b) (-1)))
     (dflt (b_amax b) (dflt (b_axmax b) 1)) (dflt (b_amax b) (dflt (b_aymax b) 1)).

(** holonomic.py 73-82, norm_inf *)
Definition holonomic_inf (L : hlimits) (T : R) : list con :=
  let dx := SV 0 1 in let dy := SV 1 1 in let ddx := SV 0 2 in let ddy := SV 1 2 in
  [ le0 (- dx + SN (T * vxmin L)); le0 (- dy + SN (T * vymin L));
    le0 (dx - SN (T * vxmax L)); le0 (dy - SN (T * vymax L));
    le0 (- ddx + SN (T ^ 2 * axmin L)); le0 (- ddy + SN (T ^ 2 * aymin L));
    le0 (ddx - SN (T ^ 2 * axmax L)); le0 (ddy - SN (T ^ 2 * aymax L)) ].
(** holonomic.py 67-71, norm_2 *)
Definition holonomic_two (vmax amax T : R) : list con :=
  let dx := SV 0 1 in let dy := SV 1 1 in let ddx := SV 0 2 in let ddy := SV 1 2 in
  [ le0 ((dx ^ 2 + dy ^ 2) - SN (T ^ 2 * vmax ^ 2));
    le0 ((ddx ^ 2 + ddy ^ 2) - SN (T ^ 4 * amax ^ 2)) ].
(** holonomic.py 55-56 and 62-85: define_trajectory_constraints; the
    ValueError of line 84 is None *)
Definition holonomic_constraints (syslimit : string) (b : hbounds) (T : R) : option (list con) :=
  if (syslimit =? "norm_2")%string
  then Some (holonomic_two (dflt (b_vmax b) (1/2)) (dflt (b_amax b) 1) T)
  else if (syslimit =? "norm_inf")%string then Some (holonomic_inf (holonomic_limits b) T)
  else None.

(** holonomic.py 87-96 with set_parameters 153-159 *)
Definition holonomic_init (state input : R * R) (T : R) : list (list sx) :=
  [ [SV 0 0; SN (fst state)]; [SV 1 0; SN (snd state)];
    [SV 0 1; SN (T * fst input)]; [SV 1 1; SN (T * snd input)] ].
(** holonomic.py 98-105: position and all derivatives up to the degree (3,
    holonomic.py 32) *)
Definition holonomic_term (pos : R * R) : list (sx * R) :=
  [ (SV 0 0, fst pos); (SV 1 0, snd pos) ] ++
  flat_map (fun d => [ (SV 0 d, 0); (SV 1 d, 0) ]) (seq 1 3).
(** holonomic.py 165-175: state, input and dinput from the splines in
    physical time *)
Definition holonomic_state (x y : jet) : list R := [x 0%nat; y 0%nat].
(* with the above, holonomic.py 165-175 *)
Definition holonomic_input (x y : jet) : list R := [x 1%nat; y 1%nat].
(* with the above, holonomic.py 165-175 *)
Definition holonomic_dinput (x y : jet) : list R := [x 2%nat; y 2%nat].
(** holonomic.py 180-181 *)
Definition holonomic_ode (state input : list R) : list R := input.

(** holonomic1d.py 40-48 *)
Definition holonomic1d_constraints (vmin vmax amin amax T : R) : list con :=
  let dx := SV 0 1 in let ddx := SV 0 2 in
  [ le0 (- dx + SN (T * vmin)); le0 (dx - SN (T * vmax));
    le0 (- ddx + SN (T ^ 2 * amin)); le0 (ddx - SN (T ^ 2 * amax)) ].

(** holonomic3d.py 44-71 *)
Definition holonomic3d_constraints (syslimit : string) (vmin vmax amin amax T : R) : option (list con) :=
  let dx := SV 0 1 in let dy := SV 1 1 in let dz := SV 2 1 in
  let ddx := SV 0 2 in let ddy := SV 1 2 in let ddz := SV 2 2 in
  if (syslimit =? "norm_2")%string then Some
  [ le0 ((dx ^ 2 + dy ^ 2 + dz ^ 2) - SN (T ^ 2 * vmax ^ 2));
    le0 ((ddx ^ 2 + ddy ^ 2 + ddz ^ 2) - SN (T ^ 4 * amax ^ 2)) ]
  else if (syslimit =? "norm_inf")%string then Some
  [ le0 (- dx + SN (T * vmin)); le0 (- dy + SN (T * vmin)); le0 (- dz + SN (T * vmin));
    le0 (dx - SN (T * vmax)); le0 (dy - SN (T * vmax)); le0 (dz - SN (T * vmax));
    le0 (- ddx + SN (T ^ 2 * amin)); le0 (- ddy + SN (T ^ 2 * amin)); le0 (- ddz + SN (T ^ 2 * amin));
    le0 (ddx - SN (T ^ 2 * amax)); le0 (ddy - SN (T ^ 2 * amax)); le0 (ddz - SN (T ^ 2 * amax)) ]
  else None.

(** holonomicorient.py 49-74 (the regularisation terms 75-88 only add an
    objective and are left out) *)
Definition holonomicorient_constraints (syslimit : string) (vmin vmax amin amax wmin wmax T : R)
  : option (list con) :=
  let dx := SV 0 1 in let dy := SV 1 1 in let ddx := SV 0 2 in let ddy := SV 1 2 in
  let tg := SV 2 0 in let dtg := SV 2 1 in
  let turn := [ le0 (SN 2 * dtg - (SN 1 + tg ^ 2) * SN T * SN wmax);
                le0 (- (SN 2 * dtg) + (SN 1 + tg ^ 2) * SN T * SN wmin) ] in
  if (syslimit =? "norm_2")%string then Some
  ([ le0 ((dx ^ 2 + dy ^ 2) - SN (T ^ 2 * vmax ^ 2));
     le0 ((ddx ^ 2 + ddy ^ 2) - SN (T ^ 4 * amax ^ 2)) ] ++ turn)
  else if (syslimit =? "norm_inf")%string then Some
  ([ le0 (- dx + SN (T * vmin)); le0 (- dy + SN (T * vmin));
     le0 (dx - SN (T * vmax)); le0 (dy - SN (T * vmax));
     le0 (- ddx + SN (T ^ 2 * amin)); le0 (- ddy + SN (T ^ 2 * amin));
     le0 (ddx - SN (T ^ 2 * amax)); le0 (ddy - SN (T ^ 2 * amax)) ] ++ turn)
  else None.

(** holonomicorient.py 162-177: theta and dtheta from tg_ha; 90-100 and
    146-153: start constraints; 102-110: terminal constraints *)
Definition tgtheta (tg : jet) : R := 2 * atan2 (tg 0%nat) 1.
(* with the above, holonomicorient.py 162-177 *)
Definition tgdtheta (tg : jet) : R := 2 * tg 1%nat / (1 + tg 0%nat ^ 2).
(* with the above, holonomicorient.py 162-177 *)
Definition holonomicorient_init (state input : R * R * R) (T : R) : list (list sx) :=
  let '(px, py, th) := state in let '(vx, vy, w) := input in
  let tg0 := tan (th / 2) in
  let dtg0 := 1/2 * w * (1 + tg0 ^ 2) in
  [ [SV 0 0; SN px]; [SV 1 0; SN py]; [SV 2 0; SN tg0];
    [SV 0 1; SN (T * vx)]; [SV 1 1; SN (T * vy)]; [SV 2 1; SN (T * dtg0)] ].
(* with the above, holonomicorient.py 162-177 *)
Definition holonomicorient_term (pose : R * R * R) : list (sx * R) :=
  let '(px, py, th) := pose in
  [ (SV 0 0, px); (SV 1 0, py); (SV 2 0, tan (th / 2)) ] ++
  flat_map (fun d => [ (SV 0 d, 0); (SV 1 d, 0); (SV 2 d, 0) ]) (seq 1 3).
(* with the above, holonomicorient.py 162-177 *)
Definition holonomicorient_state (x y tg : jet) : list R := [x 0%nat; y 0%nat; tgtheta tg].
(* with the above, holonomicorient.py 162-177 *)
Definition holonomicorient_input (x y tg : jet) : list R := [x 1%nat; y 1%nat; tgdtheta tg].

(** ** Machine tool *)

(** tool.py 44-64: three separate limits per quantity *)
Record tlimits := TL {
  t_vmin : nat -> R; t_vmax : nat -> R; t_amin : nat -> R; t_amax : nat -> R;
  t_jmin : nat -> R; t_jmax : nat -> R }.
(** tool.py 65-77: the bounds vmin, vmax, amin, amax, jmin, jmax; vmin and
    vmax are written to the x and y axes only *)
Record tcommon := TC {
  c_vmin : option R; c_vmax : option R; c_amin : option R; c_amax : option R;
  c_jmin : option R; c_jmax : option R }.
(* with the above, tool.py 65-77 *)
Definition tool_limits (c : tcommon) (L : tlimits) : tlimits :=
  let xy o d := fun k => if (k <? 2)%nat then dflt o (d k) else d k in
  let xyz o d := fun k : nat => dflt o (d k) in
  TL (xy (c_vmin c) (t_vmin L)) (xy (c_vmax c) (t_vmax L))
     (xyz (c_amin c) (t_amin L)) (xyz (c_amax c) (t_amax L))
     (xyz (c_jmin c) (t_jmin L)) (xyz (c_jmax c) (t_jmax L)).

(** tool.py 83-126: define_trajectory_constraints (the skip argument, which
    drops coefficients at the ends, concerns the relaxation only) *)
Definition axes_cons (d : nat) (lo hi : nat -> R) (T : R) : list con :=
  map (fun k => le0 (- SV k d + SN (T ^ d * lo k))) [0; 1; 2]%nat ++
  map (fun k => le0 (SV k d - SN (T ^ d * hi k))) [0; 1; 2]%nat.
(* with the above, tool.py 83-126 *)
Definition tool_constraints (vel_limit : string) (L : tlimits) (T : R) : option (list con) :=
  let vel :=
    if (vel_limit =? "machining")%string then
      if Req_EM_T (t_vmax L 0) 0
      then Some [ le0 ((SV 2 1) ^ 2 - SN (T ^ 2 * t_vmax L 2 ^ 2)) ]
      else Some [ le0 (((SV 0 1) ^ 2 + (SV 1 1) ^ 2) - SN (T ^ 2 * t_vmax L 0 ^ 2)) ]
    else if (vel_limit =? "axes")%string then Some (axes_cons 1 (t_vmin L) (t_vmax L) T)
    else None in
  match vel with
  | None => None
  | Some v => Some (v ++ axes_cons 2 (t_amin L) (t_amax L) T ++ axes_cons 3 (t_jmin L) (t_jmax L) T)
  end.

(** tool.py 179-268: define_collision_constraints.  A segment is a straight
    piece (rectangle) or a ring; the tool shape is Circle(0), tool.py 35, so
    its single check point is the origin and rad = [0]. *)
Inductive segment :=
| Straight (aligned : bool) (lims : (R * R) * (R * R)) (start fin : R * R * R) (height : R)
| RingSeg (center : R * R) (radius_in radius_out : R) (start fin : R * R * R).
(* with the above, tool.py 179-268 *)
Definition seg_start (s : segment) := match s with Straight _ _ a _ _ => a | RingSeg _ _ _ a _ => a end.
(* with the above, tool.py 179-268 *)
Definition seg_end (s : segment) := match s with Straight _ _ _ b _ => b | RingSeg _ _ _ _ b => b end.
(** tool.py 190-204 (axis-aligned), 205-224 (diagonal), 225-237 (ring) *)
Definition tool_shape_cons (rad : R) (s : segment) : list con :=
  let x := SV 0 0 in let y := SV 1 0 in
  match s with
  | Straight true ((xlo, xhi), (ylo, yhi)) _ _ _ =>
      [ le0 (- (SN 0 + x) + SN xlo + SN rad); le0 ((SN 0 + x) - SN xhi + SN rad);
        le0 (- (SN 0 + y) + SN ylo + SN rad); le0 ((SN 0 + y) - SN yhi + SN rad) ]
  | Straight false _ (x1, y1, _) (x2, y2, _) h =>
      let tolerance := h * (1/2) in
      let vx := x2 - x1 in let vy := y2 - y1 in
      let n := 1 / sqrt (vx ^ 2 + vy ^ 2) in
      let a0 := - vy * n in let a1 := vx * n in
      let b := a0 * x1 + a1 * y1 in
      [ le0 (SN a0 * x + SN a1 * y - SN b - SN tolerance + SN rad);
        le0 (- (SN a0 * x) - SN a1 * y + SN b - SN tolerance + SN rad) ]
  | RingSeg (cx, cy) rin rout _ _ =>
      [ le0 (- ((x - SN cx) ^ 2) - (y - SN cy) ^ 2 + SN ((rin + rad) ^ 2));
        le0 ((x - SN cx) ^ 2 + (y - SN cy) ^ 2 - SN ((rout - rad) ^ 2)) ]
  end.
(** tool.py 241-247: limits on z for a movement in z *)
Definition tool_z_cons (rad : R) (s : segment) : list con :=
  let z1 := snd (seg_start s) in let z2 := snd (seg_end s) in let z := SV 2 0 in
  if Req_EM_T z1 z2 then []
  else [ le0 (- z + SN (Rmin z1 z2) - SN rad); le0 (z - SN (Rmax z1 z2) - SN rad) ].
(* with the above, tool.py 241-247 *)
Definition tool_segment_constraints (s : segment) : list con :=
  tool_shape_cons 0 s ++ tool_z_cons 0 s.
(** tool.py 264-268: the box around the end of the segment, on the spline
    values at normalised time 1 *)
Definition tool_box_constraints (tolerance : R) (s : segment) : list con :=
  let ex := fst (fst (seg_end s)) in let ey := snd (fst (seg_end s)) in
  let x := SV 0 0 in let y := SV 1 0 in
  [ le0 (x - SN ex - SN (tolerance * (9/10))); le0 (- x + SN ex - SN (tolerance * (9/10)));
    le0 (y - SN ey - SN (tolerance * (9/10))); le0 (- y + SN ey - SN (tolerance * (9/10))) ].

(** ** Arrival tests *)

(** np.linalg.norm of a vector; used by arrived3d, quadrotor3d.py 200-206 *)
Definition norm (v : list R) : R := sqrt (fold_right (fun a s => a * a + s) 0 v).
(* with the above, tool.py 264-268 *)
Definition vsub (u v : list R) : list R := map (fun p => fst p - snd p) (combine u v).
(* with the above, tool.py 264-268 *)
Definition gtb (a b : R) : bool := if Rlt_dec b a then true else false.

(** holonomic.py 145-151 and, with the same text, holonomic1d 85-91,
    holonomic3d 116-122, holonomicorient 138-144, dubins 220-226,
    bicycle 225-232 and agv 192-199 (state[:3]), quadrotor 104-110
    (pose[:2], dspl), quadrotor3d_simple 139-145 (pose[:3], dspl), tool 163-169.
    The condition is (norm(err) > tol or norm(input)) > tol: `a or b` is the
    truth value True when the first comparison holds, otherwise the number
    norm(input); the result is then compared with tol, True being 1. *)
Inductive pyval := PyBool (b : bool) | PyNum (r : R).
(* with the above, holonomic.py 145-151 *)
Definition py_or (a : bool) (b : pyval) : pyval := if a then PyBool true else b.
(* with the above, holonomic.py 145-151 *)
Definition py_num (v : pyval) : R := match v with PyBool true => 1 | PyBool false => 0 | PyNum r => r end.
(* with the above, holonomic.py 145-151 *)
Definition arrived (tol : R) (err input : list R) : bool :=
  negb (gtb (py_num (py_or (gtb (norm err) tol) (PyNum (norm input)))) tol).
(** quadrotor3d.py 200-206: here the parenthesis is at the end *)
Definition arrived3d (tol g : R) (err input : list R) : bool :=
  negb (gtb (norm err) tol || gtb (norm input - g) tol).
(** trailer.py 130-143 *)
Definition arrived_trailer (tol : R) (theta : R) (thetaT : option R) (lead : bool) : bool :=
  lead && match thetaT with
          | Some th => negb (gtb (norm [theta - th]) tol)
          | None => true
          end.
