(** The splines a solved problem of a vehicle with integrated position is made
    of: Dubins, Bicycle, AGV and Trailer (integrate_once), Quadrotor3D
    (integrate_twice), on the level of coefficients.

    Numbering as in Wheel_Model and Quad_Model: 0 is v_til, 1 is tg_ha, 2 and 3
    the position; with the option substitution 4, 5 are the variables dx, dy
    and 6, 7 the position self.x, self.y made of them.  Of a Quadrotor3D 0, 1, 2
    are f_til, q_phi, q_theta, 3 to 5 the position and 6 to 8 the velocity; with
    the option substitution 9 to 11 are the variables ddx, ddy, ddz, 12 to 14
    and 15 to 17 the position and velocity made of them.

    Simplifications: as in Lift_Model (exact reals, None where an operation
    raises; the symbols t and T have their values). *)
From Coq Require Import Reals List Arith.
From Verif Require Import Spline_Model Splop_Model Vehicle_Model Wheel_Model Quad_Model Lift_Model.
Import ListNotations.
Local Open Scope R_scope.

(** dubins.py 262-268 (bicycle.py 280-286, agv.py 162-164): integrate_once
    inside the problem, where t is a symbol (line 265) *)
Definition integrate_spline (dx : bspline) (x0 t T : R) : bspline :=
  let dx_int := mul_num (running_integral dx) T in
  add_num (add_num dx_int (- evalspline dx_int (t / T))) x0.
(** quadrotor3d.py 238-251: integrate_twice; position and velocity *)
Definition integrate_twice_spline (ddx : bspline) (dx0 x0 t T : R) : bspline * bspline :=
  let dx := integrate_spline ddx dx0 t T in (integrate_spline dx x0 t T, dx).

(** a spline, if the expression is one (spline_extra.py 58-76 asks for the
    basis of its argument: a number raises) *)
Definition spline_of (o : option pyobj) : option bspline :=
  match o with Some (Spl s) => Some s | _ => None end.

(** dubins.py 191-192, 254-255 (bicycle.py 191-192, agv.py 160-161): dx and dy *)
Definition til_dx_sx : sx := (SV 0 0 * (SN 1 - SV 1 0 ^ 2))%sx.
(* with the above, dubins.py 191-192 *)
Definition til_dy_sx : sx := (SV 0 0 * (SN 2 * SV 1 0))%sx.
(** dubins.py 193-194, 256-257, 367-368 (bicycle.py 193-194, agv.py 162-164):
    the position splines *)
Definition wheel_position (tol : R) (X : nat -> bspline) (pos0 : R * R) (t T : R) : option (bspline * bspline) :=
  match spline_of (build tol X til_dx_sx), spline_of (build tol X til_dy_sx) with
  | Some dx, Some dy => Some (integrate_spline dx (fst pos0) t T, integrate_spline dy (snd pos0) t T)
  | _, _ => None
  end.
(** the numbering above: position splines added to those of the vehicle
    (dubins.py 195, 260) *)
Definition placed (X : nat -> bspline) (p : bspline * bspline) : nat -> bspline :=
  fun i => match i with 2%nat => fst p | 3%nat => snd p | _ => X i end.

(** dubins.py 97-100, 107-110 (bicycle.py 105-106, 111-114): self.x, self.y of
    the option substitution *)
Definition wheel_substitute (X : nat -> bspline) (pos0 : R * R) (t T : R) : bspline * bspline :=
  (integrate_spline (X 4%nat) (fst pos0) t T, integrate_spline (X 5%nat) (snd pos0) t T).
(* with the above, dubins.py 97-114 *)
Definition placed_substitute (X : nat -> bspline) (p q : bspline * bspline) : nat -> bspline :=
  fun i => match i with 6%nat => fst q | 7%nat => snd q | _ => placed X p i end.
(** dubins.py 111-115 (eps = 1e-3), bicycle.py 115-119 (eps = 1e-2): the
    substitution that is not exact *)
Definition wheel_substitution (eps : R) : list con :=
  [ Con (SV 6 0 - SV 2 0)%sx (Some (- eps)) eps;
    Con (SV 7 0 - SV 3 0)%sx (Some (- eps)) eps ].
(** dubins.py 188-189, 195-197: the terminal constraints with substitution *)
Definition dubins_term_substitute (pose : R * R * R) : list (sx * R) :=
  let '(px, py, th) := pose in
  [ (SV 6 0, px); (SV 7 0, py); (SV 1 0, tan (th / 2)); (SV 0 0, 0); (SV 1 1, 0) ].

(** trailer.py 80-94: get_terminal_constraints with a Dubins as leading vehicle;
    the position splines of the vehicle are numbered 3 and 4 (one more than in
    a Dubins); thT is None when theta_trT is not set *)
Definition trailer_term (thT : option R) (pose : R * R * R) : list (sx * R) :=
  match thT with Some th => [ (SV 0 0, tan (th / 2)) ] | None => [] end ++
  map (fun c => (shift 1 (fst c), snd c)) (dubins_term pose).
(** the splines of the leading vehicle (splines[1:], trailer.py 66, 78, 89) *)
Definition leading (X : nat -> bspline) : nat -> bspline := fun i => X (S i).
(* with the above, trailer.py 89 *)
Definition trailed (X : nat -> bspline) (p : bspline * bspline) : nat -> bspline :=
  fun i => match i with O => X O | S j => placed (leading X) p j end.

(** quadrotor3d.py 103-105, 163-165, 229-231: ddx, ddy, ddz *)
Definition quad3d_dd (k : nat) : sx :=
  (let f := SV 0 0 in let p := SV 1 0 in let q := SV 2 0 in
   match k with
   | O => f * (SN 1 - p ^ 2) * (SN 2 * q)
   | 1%nat => - f * (SN 1 + q ^ 2) * (SN 2 * p)
   | _ => f * (SN 1 - p ^ 2) * (SN 1 - q ^ 2) - SN gravity
   end)%sx.
(** quadrotor3d.py 166-168, 232-234: position and velocity along axis k *)
Definition quad3d_axis (tol : R) (X : nat -> bspline) (pos0 vel0 : nat -> R) (t T : R) (k : nat)
  : option (bspline * bspline) :=
  match spline_of (build tol X (quad3d_dd k)) with
  | Some dd => Some (integrate_twice_spline dd (vel0 k) (pos0 k) t T)
  | None => None
  end.
(** the numbering above: position and velocity splines (quadrotor3d.py 170-175) *)
Definition flown (X : nat -> bspline) (m : nat -> bspline * bspline) : nat -> bspline :=
  fun i => if (i <? 3)%nat then X i else if (i <? 6)%nat then fst (m (i - 3)%nat)
           else if (i <? 9)%nat then snd (m (i - 6)%nat) else X i.
(** quadrotor3d.py 169-175: get_terminal_constraints; the velocity splines are
    those of integrate_twice *)
Definition quad3d_stop (px py pz phiT thT : R) : list (sx * R) :=
  [ (SV 3 0, px); (SV 4 0, py); (SV 5 0, pz);
    (SV 1 0, tan (phiT / 2)); (SV 2 0, tan (thT / 2)); (SV 0 0, gravity);
    (SV 6 0, 0); (SV 7 0, 0); (SV 8 0, 0) ].
(** quadrotor3d.py 119-133: the substitution that is not exact (the default):
    the same for the variables ddx, ddy, ddz *)
Definition quad3d_substitute (X : nat -> bspline) (pos0 vel0 : nat -> R) (t T : R) (k : nat) : bspline * bspline :=
  integrate_twice_spline (X (9 + k)%nat) (vel0 k) (pos0 k) t T.
(* with the above, quadrotor3d.py 119-133 *)
Definition flown_substitute (X : nat -> bspline) (m q : nat -> bspline * bspline) : nat -> bspline :=
  fun i => if (i <? 12)%nat then flown X m i else if (i <? 15)%nat then fst (q (i - 12)%nat) else snd (q (i - 15)%nat).
(* with the above, quadrotor3d.py 130-133 *)
Definition quad3d_substitution : list con :=
  map (fun k => Con (SV (12 + k) 0 - SV (3 + k) 0)%sx (Some (- (1 / 1000))) (1 / 1000)) [0; 1; 2]%nat.
(** quadrotor3d.py 158-160, 169-175: terminal constraints with substitution *)
Definition quad3d_stop_substitute (px py pz phiT thT : R) : list (sx * R) :=
  [ (SV 12 0, px); (SV 13 0, py); (SV 14 0, pz);
    (SV 1 0, tan (phiT / 2)); (SV 2 0, tan (thT / 2)); (SV 0 0, gravity);
    (SV 15 0, 0); (SV 16 0, 0); (SV 17 0, 0) ].

(** holonomic1d.py 50-56 (n = 1), holonomic3d.py 73-82 (n = 3) with
    set_parameters 93-98, 124-129: the start constraints *)
Definition axes_init (n : nat) (pos vel : nat -> R) (T : R) : list (list sx) :=
  map (fun k => [SV k 0; SN (pos k)]) (seq 0 n) ++ map (fun k => [SV k 1; SN (T * vel k)]) (seq 0 n).
(** holonomic1d.py 58-65, holonomic3d.py 84-92: the terminal constraints, degree
    3 *)
Definition axes_term (n : nat) (goal : nat -> R) : list (sx * R) :=
  map (fun k => (SV k 0, goal k)) (seq 0 n) ++ flat_map (fun d => map (fun k => (SV k d, 0)) (seq 0 n)) (seq 1 3).
