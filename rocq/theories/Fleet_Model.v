(** Model of the fleet and of the coupling constraints of formation problems.

    Code: omgtools/vehicles/fleet.py 37-101, omgtools/vehicles/vehicle.py
    234-240, omgtools/problems/formation.py 33-66, omgtools/problems/
    rendezvous.py 36-83, omgtools/problems/formation_central.py 36-81.

    Vehicles are numbered by their place in [Fleet.vehicles] (the code keys
    its dictionaries by vehicle objects, which are distinct).  Numbers are
    exact reals, a trajectory coordinate is a function of time. *)

From Coq Require Import String List Arith ZArith Reals Bool.
Import ListNotations.
Open Scope string_scope.
Open Scope list_scope.
Open Scope nat_scope.

(** ** Neighbours *)

(** fleet.py 54: the neighbours of vehicle [l] in a circular fleet. *)
Definition circ (N l : nat) : list nat := [ (N + l + 1) mod N; (N + l - 1) mod N ].

(** fleet.py 56: the neighbours of vehicle [l] in a full interconnection. *)
Definition full (N l : nat) : list nat := filter (fun k => negb (k =? l)) (seq 0 N).

(** fleet.py 49-60: the choice on the interconnection string; any other
    string raises ValueError (58-59), here [None]. *)
Definition neighbours (interconnection : string) (N : nat) : option (nat -> list nat) :=
  if String.eqb interconnection "circular" then Some (circ N)
  else if String.eqb interconnection "full" then Some (full N)
  else None.

(** ** Configuration *)

(** fleet.py 67-75: one vehicle's configuration.  A two-entry one is turned
    by minus the orientation; a list becomes a dictionary with keys 0, 1, ...
    (simplification: configurations given as lists; a two-entry dictionary
    with keys 0 and 1 behaves the same, one with other keys raises KeyError
    at line 70). *)
Definition turned (orientation : R) (config : list R) : list R :=
  match config with
  | [ a; b ] =>
      let cth := cos (- orientation) in
      let sth := sin (- orientation) in
      [ a * cth - b * sth; a * sth + b * cth ]%R
  | _ => config
  end.

(** fleet.py 93-98: the position of the fleet centre relative to a vehicle. *)
Definition rel_pos_c (config : list R) : list R := map Ropp config.

(** fleet.py 84-91: the relative configuration of a vehicle and one of its
    neighbours; [None] is the ValueError of lines 84-87. *)
Definition rel_config (cv cn : list R) : option (list R) :=
  if length cv =? length cn
  then Some (map (fun p => fst p - snd p)%R (combine cv cn))
  else None.

(** fleet.py 62-91 for the whole fleet: [None] when the number of entries is
    wrong (64-66) or two neighbours disagree on the number of entries. *)
Definition set_configuration (nb : nat -> list nat) (N : nat)
    (configuration : list (list R)) (orientation : R)
    : option (nat -> list R) :=
  if length configuration =? N then
    let conf := fun v => nth v (map (turned orientation) configuration) [] in
    if forallb (fun v => forallb (fun n =>
          match rel_config (conf v) (conf n) with Some _ => true | None => false end)
          (nb v)) (seq 0 N)
    then Some conf else None
  else None.

(** ** Fleet centre *)

(** vehicle.py 234-240: the fleet centre as a vehicle sees it: its position
    splines plus the relative centre position, paired by place ([zip]). *)
Definition fleet_center (position : list (R -> R)) (rel : list R) : list (R -> R) :=
  map (fun p => fun t => fst p t + snd p)%R (combine position rel).

(** ** Couples *)

(** The dictionary [couples] while it is filled; used by couple_step, formation.py 52-53 *)
Definition cmap := nat -> list nat.

(* used by couple_step, formation.py 52-53 *)
Definition mem (x : nat) (l : list nat) : bool := existsb (Nat.eqb x) l.

(** formation.py 52-53 (= rendezvous.py 54-55, formation_central.py 54-55):
    one pass of the inner loop. *)
Definition couple_step (veh : nat) (c : cmap) (nghb : nat) : cmap :=
  if negb (mem veh (c nghb)) && negb (mem nghb (c veh))
  then fun v => if v =? veh then c veh ++ [ nghb ] else c v
  else c.

(** formation.py 47-53: both loops, over the vehicles in order and the
    neighbours of each. *)
Definition couples_of (nb : nat -> list nat) (N : nat) : cmap :=
  fold_left (fun c veh => fold_left (couple_step veh) (nb veh) c)
            (seq 0 N) (fun _ => []).

(** formation_central.py 56-58: for a circular interconnection the entries
    of the last two vehicles are removed.  [vehicles[-2]] raises IndexError
    for a fleet of one vehicle. *)
Definition central_couples (interconnection : string) (nb : nat -> list nat) (N : nat)
    : option cmap :=
  let c := couples_of nb N in
  if String.eqb interconnection "circular" then
    match N with
    | 0 => None
    | 1 => None
    | S (S n) => Some (fun v => if (v =? S n) || (v =? n) then [] else c v)
    end
  else Some c.

(** formation.py 48-57: the pairs of vehicles for which a constraint
    [centre of veh - centre of nghb = 0] is defined, in order. *)
Definition pairs_of (N : nat) (c : cmap) : list (nat * nat) :=
  flat_map (fun v => map (pair v) (c v)) (seq 0 N).

(** formation.py 56-57: the constraints of one couple: entry by entry over
    [zip(ind_veh, ind_nghb)]; the indices are the sorted configuration keys
    0, 1, ...  [None] stands for the IndexError when a key has no centre. *)
Definition couple_holds (centra : nat -> list (R -> R)) (keys : nat -> list nat)
    (p : nat * nat) : Prop :=
  forall k, In k (combine (keys (fst p)) (keys (snd p))) ->
    exists f g, nth_error (centra (fst p)) (fst k) = Some f /\
                nth_error (centra (snd p)) (snd k) = Some g /\
                forall t, (f t - g t)%R = 0%R.

(** rendezvous.py 75-80 with formation.py's notation: the squared deviation
    that the rendez-vous stop test accumulates for one vehicle and one
    neighbour ([zip], relative configuration subtracted). *)
Definition rdv_term (pv pn : list R) (rc : list R) : R :=
  fold_right (fun q acc => ((fst (fst q) - snd (fst q) - snd q) ^ 2 + acc)%R) 0%R
             (combine (combine pv pn) rc).

(** rendezvous.py 68-83: the accumulated residual and the test against
    5e-2. *)
Definition rdv_residual (nb : nat -> list nat) (N : nat)
    (pos : nat -> list R) (rc : nat -> nat -> list R) : R :=
  fold_right Rplus 0%R
    (flat_map (fun v => map (fun n => rdv_term (pos v) (pos n) (rc v n)) (nb v))
              (seq 0 N)).

(* with the above, rendezvous.py 68-83 *)
Definition rdv_stop (nb : nat -> list nat) (N : nat)
    (pos : nat -> list R) (rc : nat -> nat -> list R) : bool :=
  if Rlt_dec (5 / 100)%R (sqrt (rdv_residual nb N pos rc)) then false else true.
