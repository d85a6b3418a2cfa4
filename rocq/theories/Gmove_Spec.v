(* Reference notions for the G-code segment theorems: points of segments, arcs
   and ring regions, and motions with piecewise constant jerk. *)
Require Import Reals List.
From Verif Require Import Angle_Model Geom_Spec Gmove_Model.
Import ListNotations.
Open Scope R_scope.

(* point of the plane below / above a point of space *)
Definition flat (p : R * R * R) : R * R := (fst (fst p), snd (fst p)).

(* x is within distance tol of the segment from p to q *)
Definition near_segment (p q : R * R) (tol : R) (x : R * R) : Prop :=
  exists y, on_segment p q y /\ dist x y <= tol.

(* polar coordinates around c *)
Definition polar (c : R * R) (rho phi : R) : R * R := (fst c + rho * cos phi, snd c + rho * sin phi).

(* x lies at distance r from c *)
Definition on_circle (c : R * R) (r : R) (x : R * R) : Prop := dist x c = r.

(* region of a ring shape around c: radii between rin and rout, angles between
   its end angle and its start angle *)
Definition in_ring (g : ring) (c : R * R) (x : R * R) : Prop :=
  exists rho phi, rin g <= rho <= rout g /\
    (a_end g <= phi <= a_start g \/ a_start g <= phi <= a_end g) /\ x = polar c rho phi.

(* angle after turning over u from a in a given direction *)
Definition sweep (d : turn) (a u : R) : R := match d with CW => a - u | CCW => a + u end.

(* position, velocity, acceleration after time t with constant jerk j *)
Definition state := (R * R * R)%type.
Definition coast (j t : R) (s : state) : state :=
  let '(x, v, a) := s in
  (x + v * t + a * t ^ 2 / 2 + j * t ^ 3 / 6, v + a * t + j * t ^ 2 / 2, a + j * t).
Fixpoint profile (ps : list (R * R)) (s : state) : state :=
  match ps with [] => s | (j, t) :: ps' => profile ps' (coast j t s) end.
(* velocity and acceleration stay within limits during all phases *)
Fixpoint within (v_lim a_lim : R) (ps : list (R * R)) (s : state) : Prop :=
  match ps with
  | [] => True
  | (j, t) :: ps' =>
      0 <= t /\
      (forall u, 0 <= u <= t ->
        let '(_, v, a) := coast j u s in 0 <= v <= v_lim /\ - a_lim <= a <= a_lim) /\
      within v_lim a_lim ps' (coast j t s)
  end.
(* the eight phases: jerk, hold, opposite jerk, cruise, cruise, and back *)
Definition eight (j T1 T2 T4 : R) : list (R * R) :=
  [(j, T1); (0, T2); (- j, T1); (0, T4); (0, T4); (- j, T1); (0, T2); (j, T1)].
