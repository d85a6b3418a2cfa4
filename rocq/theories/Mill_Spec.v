(** Vocabulary for machining per segment. *)
From Coq Require Import Reals QArith Qreals ZArith List Arith.
From Verif Require Import Spline_Model Multi_Spec Concat_Spec Multi_Model Mill_Model.
From Verif Require Timing_Model Gcode_Model.
Import ListNotations.
Local Open Scope R_scope.

(** the answers of which the first segment is carried out: those with which the
    solver succeeded *)
Definition carried (as_ : list result) : list result := filter good as_.

(** the first segment of an answer, coordinate i, with its motion time *)
Definition leg (i : nat) (a : result) : bspline * R := (nth i (hd [] (pieces a)) no_spline, Q2R (first_time a)).
(** the first segments one after the other *)
Definition chain (i : nat) (as_ : list result) : list (bspline * R) := map (leg i) as_.

(** an answer of the shape that the local problem asks for: for every motion
    time three cubic splines with simple inner knots; positive motion times,
    together at least one sample *)
Definition fit (g : workshop) (a : result) : Prop :=
  regular_segments 3 3 (pieces a) /\ (1 <= length (pieces a))%nat /\ length (times a) = length (pieces a) /\
  Forall (fun T => (0 < T)%Q) (times a) /\ (step g <= fold_left Qplus (times a) 0)%Q.

(** the answer satisfies the initial constraints of its pass, which starts from b *)
Definition begins (b : bench) (a : result) : Prop :=
  forall t p, mill_start b = Some (t, p) ->
    Forall (fun v => v = 0) (tool_init p (hd [] (pieces a)) (Q2R (first_time a))).
(** every answer with which the solver succeeded does *)
Definition all_begin (g : workshop) (b0 : bench) (as_ : list result) : Prop :=
  forall k a b, nth_error as_ k = Some a -> good a = true -> mill_passes g (firstn k as_) b0 = Some b -> begins b a.

(** what a column should hold at time t of the motion *)
Definition holds (cs : list result) (t : R) (c : sample) : Prop :=
  length (q_state c) = 3%nat /\ length (q_input c) = 3%nat /\ length (q_dinput c) = 3%nat /\
  forall i, (i < 3)%nat -> nth i (q_state c) 0 = travelled (chain i cs) 0 t /\
    nth i (q_input c) 0 = travelled (chain i cs) 1 t /\ nth i (q_dinput c) 0 = travelled (chain i cs) 2 t.

(** the number of samples of the first segment *)
Definition samples (g : workshop) (a : result) : nat := Z.to_nat (Timing_Model.n_samp (first_time a) (step g)).
(** the times of the columns: every sample of every first segment, and its end *)
Fixpoint stamps (g : workshop) (start : R) (as_ : list result) : list R :=
  match as_ with
  | [] => []
  | a :: r => map (fun j => start + INR j * Q2R (step g)) (seq 1 (samples g a)) ++
              (start + Q2R (first_time a)) :: stamps g (start + Q2R (first_time a)) r
  end.

(** the samples lie within the first segment (a remainder that rounding to six
    decimals takes for a whole sample is excluded) *)
Definition within (g : workshop) (a : result) : Prop :=
  (inject_Z (Timing_Model.n_samp (first_time a) (step g)) * step g <= first_time a)%Q.
(** the segments meet up to the second derivative, and the knots nearest to a
    joint are not at the same distance on both sides of it *)
Definition connected (a : result) : Prop :=
  Forall (fun v => v = 0) (gcode_connections (gcode_continuity (pieces a)) (pieces a) (map Q2R (times a))) /\
  forall i, (i < 3)%nat -> uneven (component i (pieces a) (map Q2R (times a))).

(** the sum of motion times *)
Definition total_of (l : list Q) : Q := fold_right Qplus 0%Q l.

(** consecutive segments have the same d-th derivative where they meet *)
Fixpoint agrees (d : nat) (l : list (bspline * R)) : Prop :=
  match l with
  | (s1, T1) :: (((s2, T2) :: _) as r) => in_seconds s1 T1 d T1 = in_seconds s2 T2 d 0 /\ agrees d r
  | _ => True
  end.

(** every room carries its place in the list as its number *)
Definition numbered (rs : list Gcode_Model.room) : Prop :=
  forall k r, nth_error rs k = Some r -> Gcode_Model.rnumber r = k.
