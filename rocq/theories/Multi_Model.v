(** Model of the segment-wise problems: omgtools/problems/multiframeproblem.py
    and omgtools/problems/gcodeproblem.py.

    Simplifications: one vehicle; a segment is the list of its splines; the
    spline evaluations are those of Spline_Model on exact reals; a constraint
    with bounds 0., 0. is an equation, one with bounds -inf, 0. an inequality. *)
From Coq Require Import Reals List Arith Bool.
From Verif Require Import Spline_Model.
Import ListNotations.
Local Open Scope R_scope.

(** multiframeproblem.py 61-63, gcodeproblem.py 65-67: -motion_time <= 0 *)
Definition positivity (Ts : list R) : Prop := Forall (fun T => - T <= 0) Ts.

(** multiframeproblem.py 118-124, gcodeproblem.py 115-120: the left-hand sides of
    the connection constraints of one pair of splines; T1, T2 are
    motion_times[j], motion_times[j+1].  In gcodeproblem.py the number of
    derivatives is the degree of the first spline of the first segment. *)
Definition connection (n : nat) (s1 s2 : bspline) (T1 T2 : R) : list R :=
  map (fun d => evalspline (derivative s1 d) 1 * T2 ^ d - evalspline (derivative s2 d) 0 * T1 ^ d)
      (seq 0 n).

(** multiframeproblem.py 113-124: all of them for one vehicle; zip stops at the
    shorter list *)
Fixpoint connections (segs : list (list bspline)) (Ts : list R) : list R :=
  match segs, Ts with
  | sg1 :: ((sg2 :: _) as segs'), T1 :: ((T2 :: _) as Ts') =>
    flat_map (fun p => connection (degree (sbasis (fst p))) (fst p) (snd p) T1 T2) (combine sg1 sg2)
    ++ connections segs' Ts'
  | _, _ => []
  end.
(** gcodeproblem.py 107-120 *)
Fixpoint gcode_connections (n : nat) (segs : list (list bspline)) (Ts : list R) : list R :=
  match segs, Ts with
  | sg1 :: ((sg2 :: _) as segs'), T1 :: ((T2 :: _) as Ts') =>
    flat_map (fun p => connection n (fst p) (snd p) T1 T2) (combine sg1 sg2)
    ++ gcode_connections n segs' Ts'
  | _, _ => []
  end.
(* with the above, gcodeproblem.py 107-120 *)
Definition gcode_continuity (segs : list (list bspline)) : nat :=
  match segs with (s :: _) :: _ => degree (sbasis s) | _ => 0%nat end.

(** multiframeproblem.py 92-100, gcodeproblem.py 88-95: initial constraints only on
    the first segment, in its own normalised time *)
Definition init_values (cons : list (bspline * R)) (t T0 : R) : list R :=
  map (fun c => evalspline (fst c) (t / T0) - snd c) cons.
(** multiframeproblem.py 102-111, gcodeproblem.py 97-105: only on the last segment *)
Definition terminal_values (cons : list (bspline * R)) : list R :=
  map (fun c => call (fst c) 1 - snd c) cons.

(** Python's sum over the motion times; used by stop_criterium, multiframeproblem.py 205-215 *)
Definition total_time (Ts : list R) : R := fold_left Rplus Ts 0.

(** multiframeproblem.py 205-215, gcodeproblem.py 161-170: stop_criterium *)
Definition stop_criterium (Ts : list R) (update_time : R) (arrived : list bool) : bool :=
  if Rltb (total_time Ts) update_time then true else forallb (fun a => a) arrived.

(** multiframeproblem.py 229-249: init_step; returns the shift of the first
    segment (in its normalised time), the new T0 and leaves the others *)
Definition step_times (T update_time : R) : R * R :=
  if Rltb T (2 * update_time) then (T - update_time, T) else (update_time, T - update_time).
(* with the above, multiframeproblem.py 229-249 *)
Definition init_step (elapsed : R) (Ts : list R) (update_time : R) : option (R * list R) :=
  if Rltb 0 elapsed then
    let '(u, target) := step_times (total_time Ts) update_time in
    match Ts with
    | [] => None
    | T0 :: rest => Some (u / target, (T0 - u) :: rest)
    end
  else None.

(** point2point.py 354-368: FreeTPoint2point.init_step; shift and new T *)
Definition free_init_step (elapsed T update_time : R) : option (R * R) :=
  if Rltb 0 elapsed then
    let '(u, target) := step_times T update_time in Some (u / target, target)
  else None.

(** multiframeproblem.py 183-197, gcodeproblem.py: the time that simulate advances;
    None: nothing is simulated.  [rel] is init_time or 0. *)
Definition simulated_time (Ts : list R) (rel simulation_time sample_time : R) : option R :=
  let horizon := total_time Ts in
  if Rltb horizon sample_time then None
  else
    let st := if Rltb horizon simulation_time then horizon else simulation_time in
    Some (if Rltb (horizon - rel) st then horizon - rel else st).
