(** Model of the numerical part of the dual methods: consensus update,
    multiplier update, communication, residuals and acceleration.

    Code: omgtools/problems/admm.py 117-168 (z-update), 248-268 (multipliers),
    270-307 and 493-508 (residuals), 360-370 (start values), 383-475 (one
    updater's steps), 477-491 (init_step), 510-554 (acceleration), 584-611
    (one dual update); omgtools/problems/dualdecomposition.py 149-167, 209-258,
    279-297.

    Vectors are lists of exact reals, the structured vectors [q_i], [q_ij],
    [q_ji] are one vector per updater respectively per pair of updaters.
    Simplifications: every copy has the layout of the original (see property
    C35 for when this is so); the transformation to the remaining part of the
    horizon (admm.py 143-145, 161-163, 294-296) is not modelled, as for an
    update at a knot, where it is the identity.  The numerical solvers (the
    x-update, [solve] of the KKT system) are inputs of the model. *)

From Coq Require Import List Arith Reals.
Import ListNotations.
Open Scope R_scope.

Notation vec := (list R).

(** ** Vectors and matrices (rows) *)

(* used by x_penalty, admm.py 90-105 *)
Fixpoint dot (a b : vec) : R :=
  match a, b with
  | x :: a, y :: b => x * y + dot a b
  | _, _ => 0
  end.

(* numpy/casadi elementwise operation on vectors, as in admm.py 147-155 *)
Fixpoint map2 (f : R -> R -> R) (a b : vec) : vec :=
  match a, b with
  | x :: a, y :: b => f x y :: map2 f a b
  | _, _ => []
  end.

(* used by upd_f, admm.py 151 *)
Definition vadd := map2 Rplus.
(* used by upd_l, admm.py 262-263 *)
Definition vsub := map2 Rminus.
(* used by upd_f, admm.py 151 *)
Definition vscale (c : R) (a : vec) : vec := map (Rmult c) a.
(* used by primal_sq, admm.py 298-299 *)
Definition sqn (a : vec) : R := dot a a.

(** [mtimes(A, x)]; used by upd_h, admm.py 153 *)
Definition mv (A : list vec) (x : vec) : vec := map (fun r => dot r x) A.

(** [mtimes(A.T, mu)] for a matrix with [n] columns; used by upd_z_of, admm.py 155 *)
Fixpoint mtv (n : nat) (A : list vec) (mu : vec) : vec :=
  match A, mu with
  | r :: A, m :: mu => vadd (vscale m r) (mtv n A mu)
  | _, _ => repeat 0 n
  end.

(** [mtimes(A, A.T)]; used by upd_G, admm.py 152 *)
Definition mmt (A : list vec) : list vec := map (fun r => map (dot r) A) A.

(** ** z-update *)

(** admm.py 151 *)
Definition upd_f (rho : R) (x l : vec) : vec := vscale (-1) (vadd l (vscale rho x)).

(** admm.py 152 *)
Definition upd_G (rho : R) (A : list vec) : list vec := map (vscale (- (1 / rho))) (mmt A).

(** admm.py 153 *)
Definition upd_h (rho : R) (A : list vec) (b x l : vec) : vec :=
  vadd b (vscale (1 / rho) (mv A (upd_f rho x l))).

(** admm.py 155 *)
Definition upd_z_of (rho : R) (n : nat) (A : list vec) (x l mu : vec) : vec :=
  vscale (- (1 / rho)) (vadd (mtv n A mu) (upd_f rho x l)).

(** admm.py 147-155: the z-update; [mu] is what [solve(G, h)] returned. *)
Definition upd_z (rho : R) (n : nat) (A : list vec) (b x l z : vec) : Prop :=
  exists mu, length mu = length A /\ mv (upd_G rho A) mu = upd_h rho A b x l /\
             z = upd_z_of rho n A x l mu.

(** admm.py 262-263 (and dualdecomposition.py 162): the multiplier update. *)
Definition upd_l (rho : R) (l x z : vec) : vec := vadd l (vscale rho (vsub x z)).

(** ** One updater's variables (admm.py 47-53) *)

Record updater := mkUpd {
  x_i : vec;
  z_i : vec;
  z_i_p : vec;
  l_i : vec;
  l_i_p : vec;
  x_j : nat -> vec;
  z_ij : nat -> vec;
  z_ij_p : nat -> vec;
  l_ij : nat -> vec;
  l_ij_p : nat -> vec;
  z_ji : nat -> vec;
  l_ji : nat -> vec
}.

Notation system := (nat -> updater).

(* used by receive, admm.py 470-475 *)
Definition set (s : system) (u : nat) (d : updater) : system :=
  fun v => if Nat.eqb v u then d else s v.

(* used by receive, admm.py 470-475 *)
Definition fset (f : nat -> vec) (n : nat) (x : vec) : nat -> vec :=
  fun m => if Nat.eqb m n then x else f m.

(** admm.py 470-475: receiving from one neighbour. *)
Definition receive (u : nat) (s : system) (n : nat) : system :=
  let d := s u in
  set s u (mkUpd (x_i d) (z_i d) (z_i_p d) (l_i d) (l_i_p d)
                 (fset (x_j d) n (x_i (s n)))
                 (z_ij d) (z_ij_p d) (l_ij d) (l_ij_p d)
                 (fset (z_ji d) n (z_ij (s n) u))
                 (fset (l_ji d) n (l_ij (s n) u))).

(** admm.py 468-475 *)
Definition communicate (nb : nat -> list nat) (s : system) (u : nat) : system :=
  fold_left (receive u) (nb u) s.

(** admm.py 592-593 and 609-610 *)
Definition communicate_all (N : nat) (nb : nat -> list nat) (s : system) : system :=
  fold_left (communicate nb) (seq 0 N) s.

(** admm.py 477-491: when the updater's own condition on the time holds, all
    its vectors are shifted; [tf] stands for the transformation of one
    vehicle's vector. *)
Definition init_step (shifts : nat -> bool) (tf : nat -> vec -> vec) (s : system) (u : nat) : system :=
  if shifts u then
    let d := s u in
    set s u (mkUpd (tf u (x_i d)) (tf u (z_i d)) (tf u (z_i_p d)) (tf u (l_i d)) (tf u (l_i_p d))
                   (fun n => tf n (x_j d n)) (fun n => tf n (z_ij d n)) (fun n => tf n (z_ij_p d n))
                   (fun n => tf n (l_ij d n)) (fun n => tf n (l_ij_p d n))
                   (fun n => tf u (z_ji d n)) (fun n => tf u (l_ji d n)))
  else s.

(** admm.py 383-398: the x-update stores what the solver returned. *)
Definition update_x (solver : nat -> updater -> vec) (s : system) (u : nat) : system :=
  let d := s u in
  set s u (mkUpd (solver u d) (z_i d) (z_i_p d) (l_i d) (l_i_p d) (x_j d) (z_ij d) (z_ij_p d)
                 (l_ij d) (l_ij_p d) (z_ji d) (l_ji d)).

(** admm.py 407-466: z- and multiplier update of one updater; [zsolver] is the
    outcome of the z-update. *)
Definition update_zl (rho : R) (zsolver : nat -> updater -> vec * (nat -> vec))
    (s : system) (u : nat) : system :=
  let d := s u in
  let '(z, zj) := zsolver u d in
  set s u (mkUpd (x_i d) z (z_i d) (upd_l rho (l_i d) (x_i d) z) (l_i d)
                 (x_j d) zj (z_ij d) (fun n => upd_l rho (l_ij d n) (x_j d n) (zj n)) (l_ij d)
                 (z_ji d) (l_ji d)).

(** admm.py 606-608: an acceleration step may replace z_i, z_ij, l_i, l_ij of
    the updater by functions of its own variables. *)
Definition accelerated (acc : nat -> updater -> vec * (nat -> vec) * vec * (nat -> vec))
    (s : system) (u : nat) : system :=
  let d := s u in
  let '(z, zj, l, lj) := acc u d in
  set s u (mkUpd (x_i d) z (z_i_p d) l (l_i_p d) (x_j d) zj (z_ij_p d) lj (l_ij_p d)
                 (z_ji d) (l_ji d)).

(* used by first_half, admm.py 587-593 *)
Definition for_all (N : nat) (f : system -> nat -> system) (s : system) : system :=
  fold_left f (seq 0 N) s.

(** admm.py 587-593: up to the first exchange. *)
Definition first_half (N : nat) (nb : nat -> list nat) shifts tf solver (s : system) : system :=
  communicate_all N nb (for_all N (update_x solver) (for_all N (init_step shifts tf) s)).

(** admm.py 584-611: one dual update. *)
Definition dual_update (N : nat) (nb : nat -> list nat) (rho : R) shifts tf solver zsolver
    (acc : option (nat -> updater -> vec * (nat -> vec) * vec * (nat -> vec))) (s : system) : system :=
  let s := first_half N nb shifts tf solver s in
  let s := for_all N (update_zl rho zsolver) s in
  let s := match acc with Some a => for_all N (accelerated a) s | None => s end in
  communicate_all N nb s.

(** ** Residuals *)

(** admm.py 298-299 (squared) *)
Definition primal_sq (nb : nat -> list nat) (u : nat) (d : updater) : R :=
  sqn (vsub (x_i d) (z_i d)) +
  fold_right Rplus 0 (map (fun n => sqn (vsub (x_j d n) (z_ij d n))) (nb u)).

(** admm.py 300-301 *)
Definition dual_sq (rho : R) (nb : nat -> list nat) (u : nat) (d : updater) : R :=
  rho * sqn (vsub (z_i d) (z_i_p d)) +
  rho * fold_right Rplus 0 (map (fun n => sqn (vsub (z_ij d n) (z_ij_p d n))) (nb u)).

(** admm.py 302 *)
Definition combined (rho : R) (nb : nat -> list nat) (u : nat) (d : updater) : R :=
  rho * primal_sq nb u d + dual_sq rho nb u d.

(* used by p_res, admm.py 594-605 *)
Definition total (N : nat) (f : nat -> R) : R := fold_right Rplus 0 (map f (seq 0 N)).

(** admm.py 594-605: the reported residuals. *)
Definition p_res (N : nat) (nb : nat -> list nat) (s : system) : R :=
  sqrt (total N (fun u => primal_sq nb u (s u))).
(* with the above, admm.py 594-605 *)
Definition d_res (N : nat) (rho : R) (nb : nat -> list nat) (s : system) : R :=
  sqrt (total N (fun u => dual_sq rho nb u (s u))).
(* with the above, admm.py 594-605 *)
Definition c_res (N : nat) (rho : R) (nb : nat -> list nat) (s : system) : R :=
  total N (fun u => combined rho nb u (s u)).

(** dualdecomposition.py 256: already squared. *)
Definition dd_primal (nb : nat -> list nat) (u : nat) (d : updater) : R :=
  fold_right Rplus 0 (map (fun n => sqn (vsub (x_j d n) (z_ij d n))) (nb u)).

(** dualdecomposition.py 289-295: squared again before summing. *)
Definition dd_p_res (N : nat) (nb : nat -> list nat) (s : system) : R :=
  sqrt (total N (fun u => dd_primal nb u (s u) ^ 2)).

(** ** Acceleration *)

(** What accelerate keeps between calls (admm.py 512-515). *)
Record nesterov := mkNest { alpha : R; c_res_p : R }.

(** admm.py 511-515: the attributes are created in the first call. *)
Definition nest_init (eta c : R) (st : option nesterov) : nesterov :=
  match st with Some s => s | None => mkNest 1 (1 / eta * c) end.

(** admm.py 527, 544 *)
Definition next_alpha (a : R) : R := 1 / 2 * (1 + sqrt (1 + 4 * a ^ 2)).

(** admm.py 529-532, 546-549: the weight of the last difference. *)
Definition weight (a : R) : R := (a - 1) / next_alpha a.

(* used by accelerate, admm.py 524-550 *)
Definition extrapolate (w : R) (v p : vec) : vec := vadd v (vscale w (vsub v p)).

(** admm.py 524-550: new z and l of one vector pair (z with z_p, l with l_p),
    and the new state. *)
Definition accelerate (reset ama : bool) (eta c : R) (st : option nesterov)
    (z z_p l l_p : vec) : vec * vec * nesterov :=
  let s := nest_init eta c st in
  let a := alpha s in
  if reset then
    if Rle_dec c (eta * c_res_p s) then
      ((if ama then z else extrapolate (weight a) z z_p), extrapolate (weight a) l l_p,
       mkNest (next_alpha a) c)
    else (z_p, l_p, mkNest 1 (1 / eta * c_res_p s))
  else
    ((if ama then z else extrapolate (weight a) z z_p), extrapolate (weight a) l l_p,
     mkNest (next_alpha a) c).

(** The state over a sequence of calls with combined residuals [cs]; with admm.py 524-550 *)
Definition nest_step (reset : bool) (eta : R) (st : option nesterov) (c : R) : option nesterov :=
  let '(_, _, s) := accelerate reset false eta c st [] [] [] [] in Some s.

(** ** Start values and the x-update's objective *)

(** admm.py 47-53 and 360-370: all vectors start at zero, except x_i, z_i and
    z_ji, which start at the vehicle's own initial guess. *)
Definition start (guess : nat -> vec) (u : nat) : updater :=
  let zero := fun n => repeat 0 (length (guess n)) in
  mkUpd (guess u) (guess u) (zero u) (zero u) (zero u)
        zero zero zero zero zero (fun _ => guess u) (fun _ => zero u).

(** admm.py 90-105 (option AMA off): what the x-update adds to the vehicle's
    own objective. *)
Definition x_penalty (rho : R) (nb : nat -> list nat) (u : nat) (d : updater) (x : vec) : R :=
  dot (l_i d) (vsub x (z_i d)) + 1 / 2 * rho * sqn (vsub x (z_i d)) +
  fold_right Rplus 0 (map (fun n =>
    dot (l_ji d n) (vsub x (z_ji d n)) + 1 / 2 * rho * sqn (vsub x (z_ji d n))) (nb u)).

(** admm.py 150: the stacked vector of an updater and its neighbours. *)
Definition stack (nb : nat -> list nat) (u : nat) (own : vec) (other : nat -> vec) : vec :=
  own ++ concat (map other (nb u)).

(** admm.py 407-445 on the stacked vectors: the outcome of the z-update of
    updater [u] with coupling constraint [A z = b]. *)
Definition z_outcome (rho : R) (nb : nat -> list nat) (A : list vec) (b : vec) (n u : nat)
    (d : updater) (z : vec) (zj : nat -> vec) : Prop :=
  upd_z rho n A b (stack nb u (x_i d) (x_j d)) (stack nb u (l_i d) (l_ij d)) (stack nb u z zj).
