(** Vocabulary for initial guesses: curves of coefficients, sweeps, and the
    points a guess should connect. *)
From Coq Require Import Reals List Arith.
From Verif Require Import Spline_Model Spline_Spec Splop_Spec Guess_Model.
From Verif Require Geom_Model Geom_Spec.
Import ListNotations.
Local Open Scope R_scope.

(** the basis of a vehicle: clamped on the unit interval, with a continuous
    derivative *)
Definition good_basis (b : bbasis) : Prop :=
  clamped_on b 0 1 /\ (1 <= degree b)%nat /\ forall t, 0 < t < 1 -> mult_le b t (degree b - 1).
(** derivative number o of the spline with coefficients c *)
Definition curve (b : bbasis) (c : list R) (o : nat) (x : R) : R := call (derivative (mkS b c) o) x.
(** goes from 0 to 1 and never turns back *)
Definition sweep (f : R -> R) : Prop :=
  f 0 = 0 /\ f 1 = 1 /\ forall x y, 0 <= x -> x <= y -> y <= 1 -> f x <= f y.
(** the columns of an array *)
Definition columns_of (a : arr) : list (list R) := match a with A1 v => [v] | A2 _ cs => cs end.
(** every column has n entries, and there are c of them *)
Definition shaped (n c : nat) (a : arr) : Prop :=
  length (columns_of a) = c /\ (forall v, In v (columns_of a) -> length v = n) /\
  match a with A1 _ => True | A2 n' _ => n' = n end.
(** the curves of columns cs run along the line from p to q, in d components,
    with the common parametrisation f *)
Definition along (b : bbasis) (cs : list (list R)) (d : nat) (p q : nat -> R) (f : R -> R) : Prop :=
  length cs = d /\
  forall k x, (k < d)%nat -> 0 <= x <= 1 -> curve b (nth k cs []) 0 x = p k + f x * (q k - p k).

(** vehicles whose splines are positions, with the number of components *)
Inductive positions : kind -> nat -> Prop :=
  | pos_1 : positions Holonomic1D 1 | pos_2 : positions Holonomic 2 | pos_3 : positions Holonomic3D 3
  | pos_q : positions Quadrotor 2 | pos_s : positions SimpleQuadrotor3D 3.
(** vehicles with a spline for the tangent of half an angle: number of the
    spline, index of the angle in the state and in the goal *)
Inductive angles : kind -> nat -> nat -> nat -> Prop :=
  | ang_a : angles AGV 1 2 2 | ang_b : angles Bicycle 1 2 2 | ang_d : angles Dubins 1 2 2
  | ang_p : angles Quadrotor3D 1 6 3 | ang_t : angles Quadrotor3D 2 7 4.

(** the enough coefficients that the flat ends of a Quadrotor guess need *)
Definition roomy (b : bbasis) : Prop := (2 * degree b + 2 <= rows b)%nat.

(** corner number j of the path from p through the points to q *)
Definition corner (p : nat -> R) (via : list (R * R)) (q : nat -> R) (j : nat) : nat -> R :=
  nth j (p :: map vec via ++ [q]) q.
(** v has a guess g for each of its n segments *)
Definition guessed (v : vehicle) (g : guesses) (n : nat) : Prop :=
  init_value v None = Ok g /\ v_seg v = Some n /\ forall j, (j < n)%nat -> item g j <> None.

(** rooms: z lies in the room, two rooms have a common point, and a room that is
    a rectangle parallel to the axes *)
Definition within (r : Geom_Model.rect * (R * R)) (z : R * R) : Prop :=
  Geom_Spec.in_box (snd r) (Geom_Model.rw (fst r)) (Geom_Model.rh (fst r)) z.
Definition overlap (r1 r2 : Geom_Model.rect * (R * R)) : Prop := exists z, within r1 z /\ within r2 z.
Definition upright (r : Geom_Model.rect * (R * R)) : Prop :=
  Geom_Model.rth (fst r) = 0 /\ 0 <= Geom_Model.rw (fst r) /\ 0 <= Geom_Model.rh (fst r).
Definition room0 : Geom_Model.rect * (R * R) := (Geom_Model.mkRect 0 0 0, (0, 0)).

(** the class of the vehicle in front *)
Fixpoint head (v : vehicle) : kind := match v with Single c _ _ _ _ => c | Trailer _ _ _ _ l => head l end.
