(** Quadrotor, Quadrotor3D and SimpleQuadrotor3D (omgtools/vehicles).

    Simplifications as in Vehicle_Model.v and Wheel_Model.v: products of
    splines are pointwise products; twice integrated splines are given by
    antiderivatives. *)
From Coq Require Import Reals List Arith Bool.
From Verif Require Import Angle_Model Vehicle_Model Wheel_Model.
Import ListNotations.
Open Scope R_scope.

(** ** Quadrotor (planar); splines 0 = x, 1 = y *)

(** quadrotor.py 38 (and quadrotor3d.py 64): self.g *)
Definition gravity : R := 981 / 100.

(** quadrotor.py 48-62 *)
Definition quad_constraints (u1min u1max u2min u2max T : R) : list con :=
  let ddx := SV 0 2 in let ddy := SV 1 2 in let dddx := SV 0 3 in let dddy := SV 1 3 in
  let gtf := SN (gravity * T ^ 2) in
  let thrust2 := (ddx ^ 2 + (ddy + gtf) ^ 2)%sx in
  let turn := (dddx * (ddy + gtf) - ddx * dddy)%sx in
  [ le0 (- thrust2 + SN (T ^ 4 * u1min ^ 2));
    le0 (thrust2 - SN (T ^ 4 * u1max ^ 2));
    le0 (- turn + thrust2 * SN (T * u2min));
    le0 (turn - thrust2 * SN (T * u2max)) ].
(** quadrotor.py 124-144, at one sample of the splines in physical time *)
Definition quad_theta (x y : jet) : R := atan2 (x 2%nat) (y 2%nat + gravity).
(* with the above, quadrotor.py 124-144 *)
Definition quad_u1 (x y : jet) : R := sqrt (x 2%nat ^ 2 + (y 2%nat + gravity) ^ 2).
(* with the above, quadrotor.py 124-144 *)
Definition quad_u2 (x y : jet) : R :=
  (x 3%nat * (y 2%nat + gravity) - x 2%nat * y 3%nat) / ((y 2%nat + gravity) ^ 2 + x 2%nat ^ 2).
(* with the above, quadrotor.py 124-144 *)
Definition quad_state (x y : jet) : list R := [x 0%nat; y 0%nat; x 1%nat; y 1%nat; quad_theta x y].
(* with the above, quadrotor.py 124-144 *)
Definition quad_input (x y : jet) : list R := [quad_u1 x y; quad_u2 x y].
(** quadrotor.py 149-152 *)
Definition quad_ode (state input : list R) : list R :=
  let theta := nth 4 state 0 in let u1 := nth 0 input 0 in let u2 := nth 1 input 0 in
  [nth 2 state 0; nth 3 state 0; u1 * sin theta; u1 * cos theta - gravity; u2].
(** quadrotor.py 64-75 with set_parameters 112-118: pos is state[:2] *)
Definition quad_init (pos dspl ddspl : R * R) (T : R) : list (list sx) :=
  [ [SV 0 0; SN (fst pos)]; [SV 1 0; SN (snd pos)];
    [SV 0 1; SN (T * fst dspl)]; [SV 1 1; SN (T * snd dspl)];
    [SV 0 2; SN (T ^ 2 * fst ddspl)]; [SV 1 2; SN (T ^ 2 * snd ddspl)] ].
(** quadrotor.py 77-84, degree 4 (quadrotor.py 32) *)
Definition quad_term (pos : R * R) : list (sx * R) :=
  [ (SV 0 0, fst pos); (SV 1 0, snd pos) ] ++
  flat_map (fun d => [ (SV 0 d, 0); (SV 1 d, 0) ]) (seq 1 4).
(** quadrotor.py 86-89: set_initial_conditions keeps the position only *)
Definition quad_set_initial (state : list R) : list R := firstn 2 state ++ [0; 0; 0].

(** ** Quadrotor3D; splines 0 = f_til, 1 = q_phi, 2 = q_theta; 3, 4, 5 stand
    for the integrated position (order 1: its velocity) *)

(** quadrotor3d.py 79-104, without the substitution part *)
Definition quad3d_constraints (u1min u1max u2min u2max u3min u3max phimin phimax thmin thmax T : R)
  : list con :=
  let f := SV 0 0 in let p := SV 1 0 in let q := SV 2 0 in
  let dp := SV 1 1 in let dq := SV 2 1 in
  [ le0 (f * (SN 1 + p ^ 2) * (SN 1 + q ^ 2) - SN u1max);
    le0 (- (f * (SN 1 + p ^ 2) * (SN 1 + q ^ 2)) + SN u1min);
    le0 (SN 2 * dp - (SN 1 + p ^ 2) * SN T * SN u2max);
    le0 (- (SN 2 * dp) + (SN 1 + p ^ 2) * SN T * SN u2min);
    le0 (SN 2 * dq - (SN 1 + q ^ 2) * SN T * SN u3max);
    le0 (- (SN 2 * dq) + (SN 1 + q ^ 2) * SN T * SN u3min);
    le0 (p - SN (tan (1/2 * phimax))); le0 (- p + SN (tan (1/2 * phimin)));
    le0 (q - SN (tan (1/2 * thmax))); le0 (- q + SN (tan (1/2 * thmin))) ].
(** quadrotor3d.py 108-110, 163-165, 258-260: the acceleration *)
Definition quad3d_ddx (f p q : R) : R := f * (1 - p ^ 2) * (2 * q).
(* with the above, quadrotor3d.py 108-110, 163-165, 258-260 *)
Definition quad3d_ddy (f p q : R) : R := - f * (1 + q ^ 2) * (2 * p).
(* with the above, quadrotor3d.py 108-110, 163-165, 258-260 *)
Definition quad3d_ddz (f p q : R) : R := f * (1 - p ^ 2) * (1 - q ^ 2) - gravity.
(** quadrotor3d.py 238-251: integrate_twice; I1 = running_integral(ddx), I2 =
    running_integral(dx) *)
Definition integrate_twice_vel (I1 : R -> R) (dx0 t T : R) : R -> R := integrate_once I1 dx0 t T.
(* with the above, quadrotor3d.py 238-251 *)
Definition integrate_twice_pos (I2 : R -> R) (x0 t T : R) : R -> R := integrate_once I2 x0 t T.
(** quadrotor3d.py 253-277 *)
Definition quad3d_f (f p q : jet) : R := f 0%nat * ((1 + p 0%nat ^ 2) * (1 + q 0%nat ^ 2)).
(* with the above, quadrotor3d.py 253-277 *)
Definition quad3d_input (f p q : jet) : list R := [quad3d_f f p q; tgdtheta p; tgdtheta q].
(** quadrotor3d.py 300-304, quadrotor3d_simple.py 197-201 *)
Definition quad3d_ode (state input : list R) : list R :=
  let phi := nth 6 state 0 in let theta := nth 7 state 0 in
  let u1 := nth 0 input 0 in let u2 := nth 1 input 0 in let u3 := nth 2 input 0 in
  [nth 3 state 0; nth 4 state 0; nth 5 state 0;
   u1 * sin theta * cos phi; - u1 * sin phi; - gravity + u1 * cos phi * cos theta; u2; u3].
(** quadrotor3d.py 135-147 with set_parameters 208-220 *)
Definition quad3d_init (phi theta u1 : R) : list (list sx) :=
  let p0 := tan (phi / 2) in let q0 := tan (theta / 2) in
  [ [SV 0 0; SN (u1 / ((1 + p0 ^ 2) * (1 + q0 ^ 2)))]; [SV 1 0; SN p0]; [SV 2 0; SN q0] ].
(** quadrotor3d.py 151-175 *)
Definition quad3d_term (px py pz phiT thT : R) : list (sx * R) :=
  [ (SV 3 0, px); (SV 4 0, py); (SV 5 0, pz);
    (SV 1 0, tan (phiT / 2)); (SV 2 0, tan (thT / 2)); (SV 0 0, gravity);
    (SV 3 1, 0); (SV 4 1, 0); (SV 5 1, 0) ].

(** ** SimpleQuadrotor3D; splines 0 = x, 1 = y, 2 = z *)

(** quadrotor3d_simple.py 72-93 *)
Definition simple3d_constraints (u1min u1max u2min u2max u3min u3max phimin phimax thmin thmax T : R)
  : list con :=
  let ddx := SV 0 2 in let ddy := SV 1 2 in let ddz := SV 2 2 in
  let dddx := SV 0 3 in let dddy := SV 1 3 in let dddz := SV 2 3 in
  let gtf := SN (gravity * T ^ 2) in
  let thrust2 := (ddx ^ 2 + ddy ^ 2 + (ddz + gtf) ^ 2)%sx in
  [ le0 (- thrust2 + SN (T ^ 4 * u1min ^ 2));
    le0 (thrust2 - SN (T ^ 4 * u1max ^ 2));
    le0 (- (dddy * (ddz + gtf)) + dddz * ddy - (ddz + gtf) ^ 2 * SN T * SN u2max);
    le0 (dddy * (ddz + gtf) - dddz * ddy + (ddz + gtf) ^ 2 * SN T * SN u2min);
    le0 (dddx * (ddz + gtf) - dddz * ddx - (ddz + gtf) ^ 2 * SN T * SN u3max);
    le0 (- (dddx * (ddz + gtf)) + dddz * ddx + (ddz + gtf) ^ 2 * SN T * SN u3min);
    le0 (- ddy - (ddz + gtf) * SN phimax);
    le0 (ddy + (ddz + gtf) * SN phimin);
    le0 (ddx - (ddz + gtf) * SN thmax);
    le0 (- ddx + (ddz + gtf) * SN thmin) ].
(** quadrotor3d_simple.py 167-192, at one sample in physical time; a, b, c are
    ddx, ddy, ddz + g *)
Definition simple3d_phi (x y z : jet) : R :=
  atan2 (- y 2%nat) (sqrt (x 2%nat ^ 2 + (z 2%nat + gravity) ^ 2)).
(* with the above, quadrotor3d_simple.py 167-192 *)
Definition simple3d_theta (x y z : jet) : R := atan2 (x 2%nat) (z 2%nat + gravity).
(* with the above, quadrotor3d_simple.py 167-192 *)
Definition simple3d_u1 (x y z : jet) : R :=
  sqrt (x 2%nat ^ 2 + y 2%nat ^ 2 + (z 2%nat + gravity) ^ 2).
(* with the above, quadrotor3d_simple.py 167-192 *)
Definition simple3d_u2 (x y z : jet) : R :=
  (- y 3%nat * (x 2%nat ^ 2 + (z 2%nat + gravity) ^ 2)
   + y 2%nat * (x 2%nat * x 3%nat + z 3%nat * (z 2%nat + gravity)))
  / ((x 2%nat ^ 2 + y 2%nat ^ 2 + (z 2%nat + gravity) ^ 2) * sqrt (x 2%nat ^ 2 + (z 2%nat + gravity) ^ 2)).
(* with the above, quadrotor3d_simple.py 167-192 *)
Definition simple3d_u3 (x y z : jet) : R :=
  ((z 2%nat + gravity) * x 3%nat - x 2%nat * z 3%nat) / ((z 2%nat + gravity) ^ 2 + x 2%nat ^ 2).
(* with the above, quadrotor3d_simple.py 167-192 *)
Definition simple3d_state (x y z : jet) : list R :=
  [x 0%nat; y 0%nat; z 0%nat; x 1%nat; y 1%nat; z 1%nat; simple3d_phi x y z; simple3d_theta x y z].
(* with the above, quadrotor3d_simple.py 167-192 *)
Definition simple3d_input (x y z : jet) : list R := [simple3d_u1 x y z; simple3d_u2 x y z; simple3d_u3 x y z].
(** quadrotor3d_simple.py 95-106 with set_parameters 147-159 *)
Definition simple3d_init (pos vel : R * R * R) (phi theta f0 T : R) : list (list sx) :=
  let '(px, py, pz) := pos in let '(vx, vy, vz) := vel in
  [ [SV 0 0; SN px]; [SV 1 0; SN py]; [SV 2 0; SN pz];
    [SV 0 1; SN (T * vx)]; [SV 1 1; SN (T * vy)]; [SV 2 1; SN (T * vz)];
    [SV 0 2; SN (T ^ 2 * (f0 * cos phi * sin theta))];
    [SV 1 2; SN (T ^ 2 * (- f0 * sin phi))];
    [SV 2 2; SN (T ^ 2 * (f0 * cos phi * cos theta - gravity))] ].
(** quadrotor3d_simple.py 108-117, degree 4 *)
Definition simple3d_term (px py pz : R) : list (sx * R) :=
  [ (SV 0 0, px); (SV 1 0, py); (SV 2 0, pz) ] ++
  flat_map (fun d => [ (SV 0 d, 0); (SV 1 d, 0); (SV 2 d, 0) ]) (seq 1 4).
