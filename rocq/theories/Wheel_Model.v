(** Vehicles with a heading: Dubins, Bicycle, AGV and Trailer.

    Splines of a Dubins, Bicycle or AGV: 0 is v_til, 1 is tg_ha; index 2 and 3
    stand for the integrated position x, y.  Simplification: products of
    splines are pointwise products of values (the product spline is exact, see
    C08); running_integral of dx is given by its values [I] (C05 says it is an
    antiderivative of dx). *)
From Coq Require Import Reals List Arith Bool.
From Verif Require Import Angle_Model Vehicle_Model.
Import ListNotations.
Open Scope R_scope.

(** ** Dubins *)

(** dubins.py 73-128: define_trajectory_constraints without substitution *)
Definition dubins_constraints (vmax wmin wmax T : R) : list con :=
  let v := SV 0 0 in let tg := SV 1 0 in let dtg := SV 1 1 in
  [ le0 (v * (SN 1 + tg ^ 2) - SN vmax);
    le0 (- v);
    le0 (SN 2 * dtg - (SN 1 + tg ^ 2) * SN T * SN wmax);
    le0 (- (SN 2 * dtg) + (SN 1 + tg ^ 2) * SN T * SN wmin) ].
(** dubins.py 94-95 (and 140-141, 189-190, 250-251, 276-277): velocity of the
    position *)
Definition til_dx (v tg : R) : R := v * (1 - tg ^ 2).
(* with the above, dubins.py 94-95 *)
Definition til_dy (v tg : R) : R := v * (2 * tg).
(** dubins.py 96-102: exact substitution; splines 4, 5 are dx and dy *)
Definition dubins_exact_substitution : list con :=
  let v := SV 0 0 in let tg := SV 1 0 in
  [ Con (SV 4 0 - v * (SN 1 - tg ^ 2)) (Some 0) 0;
    Con (SV 5 0 - v * (SN 2 * tg)) (Some 0) 0 ].
(** dubins.py 262-268 (bicycle.py 280-286, agv.py 162-164): integrate_once,
    I = values of running_integral(dx) *)
Definition integrate_once (I : R -> R) (x0 t T : R) : R -> R :=
  fun tau => T * I tau - T * I (t / T) + x0.
(** dubins.py 285-293: signals from the splines in physical time *)
Definition til_V (v tg : jet) : R := v 0%nat * (1 + tg 0%nat ^ 2).
(* with the above, dubins.py 285-293 *)
Definition dubins_input (v tg : jet) : list R := [til_V v tg; tgdtheta tg].
(** dubins.py 289-291: acc = (v_til*(1+tg_ha**2)).derivative() by the product
    rule *)
Definition dubins_acc (v tg : jet) : R :=
  v 1%nat * (1 + tg 0%nat ^ 2) + v 0%nat * (2 * tg 0%nat * tg 1%nat).
(** dubins.py 326-333 *)
Definition dubins_ode (state input : list R) : list R :=
  let u1 := nth 0 input 0 in let u2 := nth 1 input 0 in
  [u1 * cos (nth 2 state 0); u1 * sin (nth 2 state 0); u2].
(** dubins.py 166-179 with set_parameters 228-242 *)
Definition dubins_init (theta V w T : R) : list (list sx) :=
  let tg0 := tan (theta / 2) in
  let v0 := V / (1 + tg0 ^ 2) in
  let dtg0 := 1/2 * w * (1 + tg0 ^ 2) in
  [ [SV 0 0; SN v0]; [SV 1 0; SN tg0]; [SV 1 1; SN (T * dtg0)] ].
(** dubins.py 181-197 *)
Definition dubins_term (pose : R * R * R) : list (sx * R) :=
  let '(px, py, th) := pose in
  [ (SV 2 0, px); (SV 3 0, py); (SV 1 0, tan (th / 2)); (SV 0 0, 0); (SV 1 1, 0) ].
(** dubins.py 148-149: the constraints that tie the variable formation_center
    (here cx, cy) to the pose, eps = 1e-2 *)
Definition dubins_center_constraints (cx cy rel0 rel1 : R) : list con :=
  let tg := SV 1 0 in let x := SV 2 0 in let y := SV 3 0 in
  let eps := 1/100 in
  [ Con ((x - SN cx) * (SN 1 + tg ^ 2) - SN rel1 * SN 2 * tg + SN rel0 * (SN 1 - tg ^ 2)) (Some (- eps)) eps;
    Con ((y - SN cy) * (SN 1 + tg ^ 2) + SN rel0 * SN 2 * tg + SN rel1 * (SN 1 - tg ^ 2)) (Some (- eps)) eps ].
(** dubins.py 295-298: the logged fleet centre *)
Definition dubins_logged_center (x y tg rel0 rel1 : R) : R * R :=
  let den := 1 + tg ^ 2 in
  (x + (rel0 * 2 * tg + rel1 * (1 - tg ^ 2)) / den,
   y + (rel1 * 2 * tg - rel0 * (1 - tg ^ 2)) / den).

(** ** Bicycle and AGV: [sgn] is 1 in bicycle.py and -1 in agv.py *)

(** bicycle.py 77-137 without substitution, agv.py 74-109 *)
Definition steer_rate_expr (L : R) : sx :=
  let v := SV 0 0 in let dv := SV 0 1 in
  let tg := SV 1 0 in let dtg := SV 1 1 in let ddtg := SV 1 2 in
  SN (2 * L) * ddtg * (v * (SN 1 + tg ^ 2) ^ 2)
  - SN (2 * L) * dtg * (dv * (SN 1 + tg ^ 2) ^ 2 + v * (SN 4 * tg + SN 4 * tg ^ 3) * dtg).
(* with the above, bicycle.py 77-137 *)
Definition steer_rate_den (L T : R) : sx :=
  let v := SV 0 0 in let tg := SV 1 0 in let dtg := SV 1 1 in
  SN (T ^ 2) * v ^ 2 * (SN 1 + tg ^ 2) ^ 4 + (SN (2 * L) * dtg) ^ 2.
(* with the above, bicycle.py 77-137 *)
Definition bicycle_constraints (sgn L vmax amax dmin dmax ddmin ddmax T : R) : list con :=
  let v := SV 0 0 in let dv := SV 0 1 in
  let tg := SV 1 0 in let dtg := SV 1 1 in
  [ le0 (v * (SN 1 + tg ^ 2) - SN vmax);
    le0 (dv * (SN 1 + tg ^ 2) + SN 2 * v * tg * dtg - SN (T * amax));
    le0 (SN (sgn * 2) * dtg * SN L - v * (SN 1 + tg ^ 2) ^ 2 * SN (tan dmax) * SN T);
    le0 (- (SN (sgn * 2) * dtg * SN L) + v * (SN 1 + tg ^ 2) ^ 2 * SN (tan dmin) * SN T);
    le0 (SN sgn * steer_rate_expr L - steer_rate_den L T * SN ddmax);
    le0 (- (SN sgn * steer_rate_expr L) + steer_rate_den L T * SN ddmin);
    le0 (- v) ].
(** bicycle.py 318-319, agv.py 266-267: steering angle and its rate at one
    sample, from the splines in physical time *)
Definition steer_angle (sgn L : R) (v tg : jet) : R :=
  atan2 (sgn * 2 * tg 1%nat * L) (v 0%nat * (1 + tg 0%nat ^ 2) ^ 2).
(* with the above, bicycle.py 318-319 *)
Definition steer_rate (sgn L : R) (v tg : jet) : R :=
  sgn * (2 * tg 2%nat * L * (v 0%nat * (1 + tg 0%nat ^ 2) ^ 2)
         - 2 * tg 1%nat * L * (v 1%nat * (1 + tg 0%nat ^ 2) ^ 2
                               + v 0%nat * (4 * tg 0%nat + 4 * tg 0%nat ^ 3) * tg 1%nat))
  / (v 0%nat ^ 2 * (1 + tg 0%nat ^ 2) ^ 4 + (2 * tg 1%nat * L) ^ 2).
(** the quotient of second by first derivatives used where v_til and dtg_ha
    vanish (bicycle.py 323, 331; agv.py 271, 279) *)
Definition steer_hop (sgn L : R) (v tg : jet) : R :=
  atan2 (sgn * 2 * tg 2%nat * L) (v 1%nat * (1 + tg 0%nat ^ 2) ^ 2).
(* with the above, bicycle.py 323, 331 *)
Definition small (bound : R) (r : R) : bool := if Rle_dec r bound then true else false.
(** bicycle.py 326-333, agv.py 274-281: the loop over the middle samples, with
    the previous (corrected) pair of steering angle and rate *)
Fixpoint middle (sgn L : R) (prev : R * R) (ss : list (jet * jet)) : list (R * R) :=
  match ss with
  | [] => []
  | (v, tg) :: rest =>
      let raw := (steer_angle sgn L v tg, steer_rate sgn L v tg) in
      let cur :=
        if small (1/1000) (v 0%nat) && small (1/1000) (tg 1%nat)
        then ((if small (1/10000) (tg 2%nat) && small (1/10000) (v 1%nat)
               then fst prev else steer_hop sgn L v tg), snd prev)
        else raw in
      cur :: middle sgn L cur rest
  end.
(** bicycle.py 316-337, agv.py 264-285: pairs (delta, ddelta) of all samples;
    fewer than two samples give None (index errors) *)
Definition steer_signals (sgn L : R) (ss : list (jet * jet)) : option (list (R * R)) :=
  match ss with
  | (v0, tg0) :: (v1, tg1) :: rest =>
      let raw v tg := (steer_angle sgn L v tg, steer_rate sgn L v tg) in
      let first :=
        if small (1/10000) (v0 0%nat) && small (1/10000) (tg0 1%nat)
        then (steer_hop sgn L v0 tg0, steer_rate sgn L v1 tg1) else raw v0 tg0 in
      let inner := removelast ((v1, tg1) :: rest) in
      let mid := middle sgn L first inner in
      let '(vn, tgn) := last ((v1, tg1) :: rest) (v1, tg1) in
      let fin :=
        if small (1/10000) (vn 0%nat) && small (1/10000) (tgn 1%nat)
        then last mid first else raw vn tgn in
      Some (first :: mid ++ [fin])
  | _ => None
  end.
(** bicycle.py 368-375, agv.py 294-301 *)
Definition bicycle_ode (sgn L : R) (state input : list R) : list R :=
  let u1 := nth 0 input 0 in let u2 := nth 1 input 0 in
  [u1 * cos (nth 2 state 0); u1 * sin (nth 2 state 0); sgn * (u1 / L) * tan (nth 3 state 0); u2].
(** bicycle.py 139-173 with set_parameters 234-257, agv.py 111-145 with
    201-224.  The l'Hopital constraint (bicycle.py 153-154, agv.py 125-126) is
    added as one more tuple. *)
Definition bicycle_init (sgn L theta delta V T : R) : list (list sx) :=
  let tg0 := tan (theta / 2) in
  let v0 := V / (1 + tg0 ^ 2) in
  let hop := small (1/10000) v0 in
  let v0' := if hop then 0 else v0 in
  let dtg0 := if hop then 0 else sgn * tan delta * v0 * (1 + tg0 ^ 2) ^ 2 / (2 * L) in
  let hop0 := if hop then 1 else 0 in
  let q := (1 + tg0 ^ 2) ^ 2 in
  let hopital := SMul (SN hop0)
    (SSub (SMul (SMul (SN (sgn * 2)) (SV 1 2)) (SN L))
          (SMul (SMul (SN (tan delta)) (SMul (SV 0 1) (SN q))) (SN T))) in
  [ [hopital; SN 0];
    [SV 0 0; SN v0']; [SV 1 0; SN tg0]; [SV 1 1; SN (T * dtg0)] ].
(** bicycle.py 175-201, agv.py 147-168, with the parameters v_tilT, dv_tilT,
    dtg_haT, ddtg_haT all zero (bicycle.py 241-245) *)
Definition bicycle_term (pose : R * R * R) (T : R) : list (sx * R) :=
  let '(px, py, th) := pose in
  [ (SV 2 0, px); (SV 3 0, py); (SV 1 0, tan (th / 2));
    (SV 0 0, 0); (SV 1 1, T * 0); (SV 0 1, 0); (SV 1 2, T ^ 2 * 0) ].

(** ** Trailer: splines 0 tg_ha_tr, 1 v_til_veh, 2 tg_ha_veh *)

(** trailer.py 47-66: define_trajectory_constraints; the constraints of the
    leading vehicle are those of its own splines *)
Fixpoint shift (k : nat) (e : sx) : sx :=
  match e with
  | SV i o => SV (i + k) o
  | SN r => SN r
  | SAdd a b => SAdd (shift k a) (shift k b)
  | SSub a b => SSub (shift k a) (shift k b)
  | SMul a b => SMul (shift k a) (shift k b)
  | SNeg a => SNeg (shift k a)
  | SPow a n => SPow (shift k a) n
  end.
(* with the above, trailer.py 47-66 *)
Definition shift_con (k : nat) (c : con) : con := Con (shift k (cexpr c)) (clo c) (chi c).
(* with the above, trailer.py 47-66 *)
Definition trailer_own (l tmin tmax T : R) : list con :=
  let tg := SV 0 0 in let dtg := SV 0 1 in let v := SV 1 0 in let tv := SV 2 0 in
  let eps := 1/1000 in
  let pull := (SN T * v * (SN 2 * tv * (SN 1 - tg ^ 2) - (SN 1 - tv ^ 2) * SN 2 * tg))%sx in
  [ le0 (SN 2 * dtg * SN l - pull - SN (T * eps));
    le0 (- (SN 2 * dtg * SN l) + pull - SN (T * eps));
    le0 (tv - tg - SN (tan (tmax / 2)));
    le0 (- tv + tg + SN (tan (tmin / 2))) ].
(* with the above, trailer.py 47-66 *)
Definition trailer_constraints (l tmin tmax vmax wmin wmax T : R) : list con :=
  trailer_own l tmin tmax T ++ map (shift_con 1) (dubins_constraints vmax wmin wmax T).
(** trailer.py 68-78 with set_parameters 152-153: con_tr is one tuple of four
    members *)
Definition trailer_init (l theta_tr theta_veh V w T : R) : list (list sx) :=
  let tg0 := tan (theta_tr / 2) in
  let dtg0 := 1/2 * V / l * sin (theta_veh - theta_tr) * (1 + tg0 ^ 2) in
  [SV 0 0; SN tg0; SV 0 1; SN (T * dtg0)] ::
  map (map (shift 1)) (dubins_init theta_veh V w T).
(** trailer.py 171-187: trailer state from the vehicle position *)
Definition trailer_state (l xv yv : R) (tg : jet) : list R :=
  let th := tgtheta tg in [xv - l * cos th; yv - l * sin th; th].
(** trailer.py 188-202, with a Dubins as leading vehicle *)
Definition trailer_ode (l : R) (state input : list R) : list R :=
  let th := nth 2 state 0 in let thv := nth 5 state 0 in
  let V := nth 0 input 0 in
  let dth := V / l * sin (thv - th) in
  let veh := dubins_ode [nth 3 state 0; nth 4 state 0; thv] input in
  [nth 0 veh 0 + l * sin th * dth; nth 1 veh 0 - l * cos th * dth; dth] ++ veh.
(** trailer.py 96-112: the predicted state set by set_initial_conditions *)
Definition trailer_set_initial (theta : R) (veh : list R) : list R := [0; 0; theta] ++ veh.
