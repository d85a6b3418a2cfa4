(** Initial guesses of the GCode scheduler, and the terminal constraints of
    problems with a free end.
    Sources: omgtools/problems/gcodeschedulerproblem.py 752-875, 1010-1131 and
    1133-1185, omgtools/problems/point2point.py 377-418.

    Simplifications.  Numbers are exact reals.  The solver of
    get_init_guess_ring is left out: its answer is a pair of splines of which the
    constraints are known or not.  An element of the list of guesses holds the
    coefficients of a segment and its motion time.  A raised exception is None;
    a division by a limit that is zero is None too. *)
From Coq Require Import Reals List Bool Arith.
From Verif Require Import Spline_Model Vehicle_Model Lift_Model Angle_Model.
From Verif Require Gmove_Model Loop_Model.
Import ListNotations.
Local Open Scope R_scope.

(** ** which guesses are used *)

(** gcodeschedulerproblem.py 765-798: guess_idx, the segments for which a guess is
    made from the centre line; [n0] is _n_segments and [n] is n_segments.  None
    where the name was never set *)
Definition guess_idx (n0 n : nat) : option (list nat) :=
  if (n =? 1)%nat && (1 <? n0)%nat then Some []
  else if (n0 =? 1)%nat then Some [0%nat]
  else if (1 <? n)%nat then Some [(n - 1)%nat]
  else None.
(** gcodeschedulerproblem.py 765-794: the segments of the last solution that are
    taken over *)
Definition old_idx (n0 n : nat) : list nat :=
  (if (1 <? n)%nat then [1%nat] else []) ++ (if (2 <? n)%nat then seq 2 (n - 2) else []) ++
  (if (n =? 1)%nat && (1 <? n0)%nat then [1%nat] else []).
(** get every element or raise; gcodeschedulerproblem.py 776, 786, 793, 804-807 *)
Fixpoint gather {A : Type} (get : nat -> option A) (l : list nat) : option (list A) :=
  match l with
  | [] => Some []
  | k :: r => match get k, gather get r with Some x, Some y => Some (x :: y) | _, _ => None end
  end.
(** gcodeschedulerproblem.py 752-821: [old] is the last solution of the local
    problem, if there is one, and [fresh k] the guess for segments[k] *)
Definition get_init_guess {A : Type} (old : option (list A)) (fresh : nat -> option A) (n0 n : nat) : option (list A) :=
  match old with
  | None => gather fresh (seq 0 n)
  | Some o =>
    match guess_idx n0 n with
    | None => None
    | Some g => match gather (nth_error o) (old_idx n0 n), gather fresh g with
                | Some a, Some b => Some (a ++ b)
                | _, _ => None
                end
    end
  end.

(** ** the guess for a ring *)

(** gcodeschedulerproblem.py 1027-1028 with x and y numbers 0 and 1 *)
Definition circ_sx (px py : R) : sx := ((SV 0 0 - SN px) ^ 2 + (SV 1 0 - SN py) ^ 2)%sx.
(** gcodeschedulerproblem.py 1027-1028 with the bounds of 1066-1067 *)
Definition ring_cons (px py rin rout : R) : list con :=
  [ le0 (- circ_sx px py + SN (rin ^ 2)); le0 (circ_sx px py - SN (rout ^ 2)) ]%sx.
(** gcodeschedulerproblem.py 1032-1043: number of the spline, derivative, moment and
    value of the constraints that are kept at zero *)
Definition ring_fixed (s e : R * R) : list (nat * nat * R * R) :=
  [ (0%nat, 0%nat, 0, fst s); (1%nat, 0%nat, 0, snd s); (0%nat, 0%nat, 1, fst e); (1%nat, 0%nat, 1, snd e);
    (0%nat, 1%nat, 0, 0); (1%nat, 1%nat, 0, 0); (0%nat, 1%nat, 1, 0); (1%nat, 1%nat, 1, 0);
    (0%nat, 2%nat, 0, 0); (1%nat, 2%nat, 0, 0); (0%nat, 2%nat, 1, 0); (1%nat, 2%nat, 1, 0) ].
(** gcodeschedulerproblem.py 1032-1043 and 1066-1067: what a solution satisfies *)
Definition ring_held (X : nat -> bspline) (s e : R * R) : Prop :=
  forall i o tau v, In (i, o, tau, v) (ring_fixed s e) -> call (derivative (X i) o) tau - v = 0.
(** gcodeschedulerproblem.py 1081-1088: start and end angle *)
Definition ring_angles (d : Gmove_Model.turn) (p s e : R * R) : R * R :=
  let th0 := atan2 (snd s - snd p) (fst s - fst p) in
  let th1 := atan2 (snd e - snd p) (fst e - fst p) in
  match d with
  | Gmove_Model.CW => (if Rltb th0 th1 then th0 + 2 * PI else th0, th1)
  | Gmove_Model.CCW => (th0, if Rltb th1 th0 then th1 + 2 * PI else th1)
  end.
(** gcodeschedulerproblem.py 1090-1094: the coefficients the solver starts from *)
Definition ring_first (n : nat) (d : Gmove_Model.turn) (p s e : R * R) : list (R * R) :=
  let r := sqrt ((fst p - fst s) ^ 2 + (snd p - snd s) ^ 2) in
  let a := ring_angles d p s e in
  map (fun t => (r * cos t + fst p, r * sin t + snd p)) (linspace (fst a) (snd a) n).
(** gcodeschedulerproblem.py 1112-1115: the three columns *)
Definition ring_columns (cx cy : list R) : list R * list R * list R := (cx, cy, map (fun c => 0 * c) cx).

(** ** motion time and check of a guess *)

(** np.linspace(0,1,100); gcodeschedulerproblem.py 847, 1158 *)
Definition eval_pts : list R := linspace 0 1 100.
(** max of a list; gcodeschedulerproblem.py 849-854, 1163, 1167 *)
Definition maxl (l : list R) : R := match l with [] => 0 | x :: r => fold_left Rmax r x end.
(** max(abs(spline(eval))); gcodeschedulerproblem.py 1163, 1171, 1179 *)
Definition peak (o : nat) (s : bspline) : R := maxl (map (fun x => Rabs (call (derivative s o) x)) eval_pts).
(** limits of the tool: vxmax, vymax, vzmax, and so on; gcodeschedulerproblem.py 856-872 *)
Record limits := Lim { vx : R; vy : R; vz : R; ax : R; ay : R; az : R; jx : R; jy : R; jz : R }.
(** gcodeschedulerproblem.py 1160-1183: largest value over its limit; the limit in x holds
    for x and y, and the one in z is only used where that in x is zero *)
Definition ratio (o : nat) (lx lz : R) (g : bspline * bspline * bspline) : option R :=
  let '(gx, gy, gz) := g in
  if Req_EM_T lx 0 then (if Req_EM_T lz 0 then None else Some (peak o gz / lz))
  else Some (Rmax (peak o gx) (peak o gy) / lx).
(** x ** (1/3.) for x >= 0; gcodeschedulerproblem.py 1163 *)
Definition root3 (x : R) : R := if Req_EM_T x 0 then 0 else Gmove_Model.cbrt x.
(** gcodeschedulerproblem.py 1160-1185 *)
Definition guess_time (L : limits) (g : bspline * bspline * bspline) : option R :=
  match ratio 3 (jx L) (jz L) g, ratio 2 (ax L) (az L) g, ratio 1 (vx L) (vz L) g with
  | Some j, Some a, Some v => Some (105 / 100 * Rmax (Rmax (root3 j) (sqrt a)) v)
  | _, _, _ => None
  end.
(** max(spline(eval)/motion_time**o) > limit; gcodeschedulerproblem.py 849-873 *)
Definition too_high (o : nat) (s : bspline) (T lim : R) : bool :=
  Rltb lim (maxl (map (fun x => call (derivative s o) x / T ^ o) eval_pts)).
(** gcodeschedulerproblem.py 837-875: the guess and its motion time, if no limit is exceeded *)
Definition checked (L : limits) (g : bspline * bspline * bspline) (T : R) : option R :=
  let '(gx, gy, _) := g in
  if too_high 1 gx T (vx L) || too_high 1 gy T (vy L) || too_high 2 gx T (ax L) || too_high 2 gy T (ay L) ||
     too_high 3 gx T (jx L) || too_high 3 gy T (jy L) then None
  else Some T.
(** gcodeschedulerproblem.py 823-875 after the coefficients are known *)
Definition new_segment (L : limits) (g : bspline * bspline * bspline) : option R :=
  match guess_time L g with None => None | Some T => checked L g T end.

(** ** free end *)

(** point2point.py 387-392: get_terminal_constraints returns a list of two lists
    (holonomic.py 105), whose length is taken *)
Definition default_free : list nat := seq 0 2.
(** point2point.py 403-410: the condition on component k: the next free
    variable or the goal *)
Definition condition (free : list nat) (cond goal : list R) (k : nat) : R :=
  if existsb (Nat.eqb k) free then nth (length (filter (fun j => existsb (Nat.eqb j) free) (seq 0 k))) cond 0
  else nth k goal 0.
(** point2point.py 405-415 for n components *)
Definition free_cons (free : list nat) (cond goal : list R) (n : nat) : list con :=
  flat_map (fun k => Loop_Model.goal_cons k (condition free cond goal k)) (seq 0 n).
(** point2point.py 416-417: one constraint for each of the [m] conditions on
    derivatives; spline and condition are those of the last component *)
Definition free_end (free : list nat) (cond goal : list R) (n m : nat) : list (sx * R) :=
  repeat (SV (n - 1) 0, condition free cond goal (n - 1)) m.
