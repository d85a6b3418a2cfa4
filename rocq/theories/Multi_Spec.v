(** What continuity over segments means, independent of how the constraints
    are written down. *)
From Coq Require Import Reals List Arith.
From Verif Require Import Spline_Model Spline_Spec Splop_Spec.
Import ListNotations.
Local Open Scope R_scope.

(** a segment as it is travelled in physical time: the spline runs over
    normalised time [0, 1] while T seconds pass; d-th derivative with respect to
    physical time, t seconds after the start of the segment *)
Definition in_seconds (s : bspline) (T : R) (d : nat) (t : R) : R :=
  call (derivative s d) (t / T) / T ^ d.

(** segments travelled one after the other *)
Fixpoint travelled (segs : list (bspline * R)) (d : nat) (t : R) : R :=
  match segs with
  | [] => 0
  | [(s, T)] => in_seconds s T d t
  | (s, T) :: rest => if Rle_dec t T then in_seconds s T d t else travelled rest d (t - T)
  end.

Definition duration (segs : list (bspline * R)) : R := fold_right (fun p a => snd p + a) 0 segs.

(** a spline as the toolbox defines them for vehicles: clamped on [0, 1], all
    inner knots simple, as many coefficients as basis functions *)
Definition regular_spline (p : nat) (s : bspline) : Prop :=
  clamped_on (sbasis s) 0 1 /\ sized s /\ degree (sbasis s) = p /\
  (forall x, 0 < x < 1 -> mult_le (sbasis s) x 1).

(** consecutive segments meet up to derivative n-1 *)
Fixpoint meets (n : nat) (l : list (bspline * R)) : Prop :=
  match l with
  | (s1, T1) :: (((s2, T2) :: _) as r) =>
    (forall d, (d < n)%nat -> in_seconds s1 T1 d T1 = in_seconds s2 T2 d 0) /\ meets n r
  | _ => True
  end.

(** regular splines of one degree, positive times *)
Definition good_segs (p : nat) (l : list (bspline * R)) : Prop :=
  Forall (fun q => regular_spline p (fst q) /\ 0 < snd q) l.

(** nothing, for indices past the end *)
Definition no_spline : bspline := mkS (mkB [] 0) [].
(** the i-th spline of every segment with the segment times *)
Definition component (i : nat) (segs : list (list bspline)) (Ts : list R) : list (bspline * R) :=
  combine (map (fun sg => nth i sg no_spline) segs) Ts.

(** every segment consists of m regular splines *)
Definition regular_segments (p m : nat) (segs : list (list bspline)) : Prop :=
  Forall (fun sg => length sg = m /\ Forall (regular_spline p) sg) segs.
