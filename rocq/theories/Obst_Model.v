(** Moving obstacles: the spline that predicts their position over the horizon,
    the simulation of their motion with scheduled changes of state, measured
    states, and rotating obstacles.
    Source: omgtools/environment/obstacle.py.
    One axis at a time: the code treats the axes independently (the default
    simulation matrix is kron(companion, identity), 175-176). *)
From Coq Require Import Reals List Arith.
From Verif Require Import Spline_Model.
Import ListNotations.
Local Open Scope R_scope.

(* ---------- prediction over the horizon ---------- *)

(** obstacle.py 60: self.basis *)
Definition obasis : bbasis := mkB [0;0;0;1;1;1] 2.

(** obstacle.py 104 (one segment, start position [p0]) and 110-111 *)
Definition oseg (p0 v0 a0 T : R) : bspline :=
  mkS obasis [p0; 1/2 * v0 * T + p0; p0 + v0 * T + 1/2 * a0 * T^2].

(** obstacle.py 93-95: velocity and position at the start of the horizon *)
Definition back_v (v a t : R) : R := v - t * a.
(* with the above, obstacle.py 93-95 *)
Definition back_x (x v a t : R) : R := x - t * back_v v a t - 1/2 * t^2 * a.

(** obstacle.py 93-95, 107-110: the position spline, one axis *)
Definition pos_spline (x v a t T : R) : bspline :=
  oseg (back_x x v a t) (back_v v a t) a T.

(** obstacle.py 97-106: with a list of segment times only the start position
    is carried over to the next segment.  All segments are returned here, the
    code keeps the last one. *)
Fixpoint pos_segments (p0 v0 a0 : R) (Ts : list R) : list bspline :=
  match Ts with
  | [] => []
  | T :: rest => let s := oseg p0 v0 a0 T in s :: pos_segments (call s 1) v0 a0 rest
  end.
(* with the above, obstacle.py 97-106 *)
Definition pos_spline_multi (x v a t : R) (Ts : list R) : list bspline :=
  pos_segments (back_x x v a t) (back_v v a t) a Ts.

(* ---------- simulation ---------- *)

(** state of one axis; used by flow, obstacle.py 235-244 *)
Record ost := mkO { ox : R; ov : R; oa : R }.
(** a scheduled jump of position, velocity, acceleration; used by events_of, obstacle.py 202-219 *)
Record event := mkE { et : R; edx : R; edv : R; eda : R }.

(** obstacle.py 49-55: the value given for time 0 replaces the initial value;
    the code takes the first value of the list, wherever time 0 stands *)
Definition initial_value (init : R) (traj : list (R * R)) : R :=
  if existsb (fun p => Reqb (fst p) 0) traj then snd (hd (0, 0) traj) else init.

(** obstacle.py 202-219: the jumps of the three trajectories, time 0 skipped.
    Jumps at equal times are added up, here they stay separate entries. *)
Definition events_of (tp tv ta : list (R * R)) : list event :=
  let late l := filter (fun p => negb (Reqb (fst p) 0)) l in
  map (fun p => mkE (fst p) (snd p) 0 0) (late tp) ++
  map (fun p => mkE (fst p) 0 (snd p) 0) (late tv) ++
  map (fun p => mkE (fst p) 0 0 (snd p)) (late ta).

(* used by incr, obstacle.py 220-225 *)
Definition sumR (l : list R) : R := fold_right Rplus 0 l.
(** obstacle.py 220-225: cumulated jumps up to and including time [t]
    (interpolation of kind 'zero').  Times are taken to be non-negative. *)
Definition incr (sel : event -> R) (evs : list event) (t : R) : R :=
  sumR (map (fun e => if Rleb (et e) t then sel e else 0) evs).

(** time since an event, 0 before it; used by flow, obstacle.py 235-244 *)
Definition ramp (te t : R) : R := if Rleb te t then t - te else 0.

(** obstacle.py 235-244 with scipy's odeint: the exact solution at [t] of
      x' = v + incr edv, v' = a + incr eda, a' = 0
    that starts at [t0] in state [s].  The solver itself is not modelled;
    that this is the solution is lemma flow_solves. *)
Definition flow (evs : list event) (t0 : R) (s : ost) (t : R) : ost :=
  mkO (ox s + ov s * (t - t0) + oa s * (t - t0)^2 / 2
       + sumR (map (fun e => edv e * (ramp (et e) t - ramp (et e) t0)
                + eda e * ((ramp (et e) t)^2/2 - (ramp (et e) t0)^2/2 - ramp (et e) t0 * (t - t0))) evs))
      (ov s + oa s * (t - t0) + sumR (map (fun e => eda e * (ramp (et e) t - ramp (et e) t0)) evs))
      (oa s).

(** obstacle.py 250-256: one simulated sample *)
Definition sample_at (evs : list event) (t0 : R) (s : ost) (t : R) : ost :=
  let s0 := if Reqb t0 0 then s
            else mkO (ox s - incr edx evs t0) (ov s - incr edv evs t0) (oa s - incr eda evs t0) in
  let f := flow evs t0 s0 t in
  mkO (ox f + incr edx evs t) (ov f + incr edv evs t) (oa f + incr eda evs t).

(** the recorded signals: times and states, last entry last; used by log0, obstacle.py 226-233 *)
Record olog := mkL { ltime : list R; lstate : list ost }.
(* with the above, obstacle.py 250-256 *)
Definition ost0 : ost := mkO 0 0 0.
(** obstacle.py 226-233 *)
Definition log0 (s : ost) : olog := mkL [0] [s].

(** obstacle.py 246-264: [n] samples of length [dt] are appended; [n] is
    int(round(simulation_time/sample_time, 6)) *)
Definition simulate (evs : list event) (n : nat) (dt : R) (l : olog) : olog :=
  let t0 := last (ltime l) 0 in
  let s := last (lstate l) ost0 in
  let ts := map (fun k => t0 + INR k * dt) (seq 1 n) in
  mkL (ltime l ++ ts) (lstate l ++ map (sample_at evs t0 s) ts).

(** obstacle.py 161-166: a measured state replaces all recorded states; the
    recorded times stay *)
Definition set_state (s : ost) (l : olog) : olog := mkL (ltime l) [s].

(** obstacle.py 375-386: orientation, constant angular velocity *)
Fixpoint rotate (n : nat) (dt omega : R) (thetas : list R) : list R :=
  match n with
  | O => thetas
  | S m => rotate m dt omega (thetas ++ [last thetas 0 + dt * omega])
  end.

(* ---------- rotating obstacles ---------- *)

(** obstacle.py 311: numpy's ceil as an integer *)
Definition ceilR (x : R) : nat := Z.to_nat (- Int_part (- x)).
(** obstacle.py 305 *)
Definition turn_time (omega : R) : R := 2 * PI / Rabs omega.
(* with the above, obstacle.py 305 *)
Definition n_quarters (omega T : R) : nat := ceilR (4 * T / turn_time omega).

(** obstacle.py 312-313: knots_theta, with [c] = Ts/T *)
Definition quarter_knots (n : nat) (c : R) : list R :=
  [0 * c; 0 * c; 0 * c] ++ flat_map (fun k => [1/4 * INR k * c; 1/4 * INR k * c]) (seq 1 n)
  ++ [1/4 * INR n * c].
(* with the above, obstacle.py 312-313 *)
Definition r22 : R := sqrt 2 / 2.
(** obstacle.py 317-322 *)
Definition cos_cfs : list R := [1; r22; 0; - r22; - 1; - r22; 0; r22; 1].
(* with the above, obstacle.py 317-322 *)
Definition sin_cfs : list R := [0; r22; 1; r22; 0; - r22; - 1; - r22; 0].
(* with the above, obstacle.py 317-322 *)
Definition weight_cfs : list R := [1; r22; 1; r22; 1; r22; 1; r22; 1].
(** obstacle.py 323-326: repeated every eight entries; the number of entries
    is that of the shortened basis, which equals that of the full one
    (2*n_quarters+1) because only the last quarter is shortened *)
Definition wrap_cfs (l : list R) (n : nat) : list R := map (fun k => nth (k mod 8) l 0) (seq 0 n).
(* with the above, obstacle.py 323-326 *)
Definition circle_spline (l : list R) (n : nat) (c : R) : bspline :=
  crop_spline (mkS (mkB (quarter_knots n c) 2) (wrap_cfs l (2 * n + 1))) 0 1.

(* used by rot_splines, obstacle.py 301-332 *)
Definition sgn (x : R) : R := if Rltb 0 x then 1 else if Rltb x 0 then -1 else 0.

(** obstacle.py 301-332: cos, sin and weight splines at [tau] of an obstacle
    with measured angle [theta] at time [t], angular velocity [omega] *)
Definition rot_splines (theta omega t T tau : R) : R * R * R :=
  let theta0 := theta - t * omega in
  let n := n_quarters omega T in
  let c := turn_time omega / T in
  let cw := call (circle_spline cos_cfs n c) tau in
  let sw := call (circle_spline sin_cfs n c) tau * sgn omega in
  (cw * cos theta0 - sw * sin theta0, cw * sin theta0 + sw * cos theta0,
   call (circle_spline weight_cfs n c) tau).
(** obstacle.py 292-298: no angular velocity, constants *)
Definition rotation (theta omega t T tau : R) : R * R * R :=
  if Reqb omega 0 then (cos theta, sin theta, 1) else rot_splines theta omega t T tau.
