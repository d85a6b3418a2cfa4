(** Vocabulary for shared vectors, groups and the formation error. *)
From Coq Require Import Reals String List Arith.
From Verif Require Import Vehicle_Model Share_Model.
Import ListNotations.
Local Open Scope list_scope.
Local Open Scope nat_scope.
Local Notation length := List.length.

(** the values belong to the shared variables, in the same order *)
Definition matches (q : shared) (d : values) : Prop :=
  map fst d = map fst q /\ map (fun e => length (snd e)) d = map (fun e => length (snd e)) q.
(** one value after the other *)
Definition laid_out (d : values) : list R := flat_map snd d.
(** the labels tell how deep the dictionary is: neighbour, child and name, the
    first with a mark, or child and name, the first without *)
Definition levelled (d : values) : Prop :=
  exists p w r l, d = (p, w) :: r /\ hd_error p = Some l /\
  ((length p = 3 /\ (has "dd" l = true \/ has "admm" l = true)) \/ (length p = 2 /\ has "dd" l = false /\ has "admm" l = false)).

(** spline number j of a variable: its n coefficients *)
Definition block (n j : nat) (v : list R) : list R := firstn n (skipn (j * n) v).
(** the indices a, a+1, .., a+m-1 hold all coefficients of spline l *)
Definition complete (n a m l : nat) : Prop := a <= l * n /\ (l + 1) * n <= a + m.

(** every value is transformed if it is a spline variable and kept otherwise *)
Fixpoint all_done (spl : path -> option (nat * (list R -> option (list R)))) (q : shared) (d d' : values) : Prop :=
  match q, d, d' with
  | [], [], [] => True
  | (k, ind) :: q, (k1, v) :: d, (k2, w) :: d' =>
    k1 = k /\ k2 = k /\ match spl k with None => w = v | Some (n, tf) => transform_leaf tf n ind v = Some w end /\
    all_done spl q d d'
  | _, _, _ => False
  end.

Local Open Scope R_scope.
(** all signals of the fleet have n samples of dimension dim *)
Definition proper_fleet (n dim : nat) (cs : list car) : Prop :=
  cs <> [] /\ Forall (fun c => length (stamp c) = n /\
    (forall k, (k < n)%nat -> length (nth k (centre c) []) = dim /\ length (nth k (spot c) []) = dim)) cs.
(** the centre of the positions at sample k, coordinate l *)
Definition middle (cs : list car) (k l : nat) : R :=
  fold_right Rplus 0 (map (fun c => nth l (nth k (spot c) []) 0) cs) / INR (length cs).
(** the signals of a holonomic vehicle: its view of the centre is its position
    minus its place in the configuration *)
Definition from_config (n dim : nat) (c : car) : Prop :=
  forall k l, (k < n)%nat -> (l < dim)%nat -> nth l (nth k (centre c) []) 0 = nth l (nth k (spot c) []) 0 - nth l (config c) 0.
(** the vehicles stand in their places around some point at every sample *)
Definition in_formation (n dim : nat) (cs : list car) : Prop :=
  exists p, forall c k l, In c cs -> (k < n)%nat -> (l < dim)%nat -> nth l (nth k (spot c) []) 0 = p k l + nth l (config c) 0.
(** the places of the configuration have their mean in the origin *)
Definition centred (dim : nat) (cs : list car) : Prop :=
  forall l, (l < dim)%nat -> fold_right Rplus 0 (map (fun c => nth l (config c) 0) cs) = 0.
(** the first step and the end of the clock of the last vehicle *)
Definition first_step (cs : list car) : R :=
  nth 1 (stamp (last cs (mkCar [] [] [] []))) 0 - nth 0 (stamp (last cs (mkCar [] [] [] []))) 0.
Definition end_time (cs : list car) : R := last (stamp (last cs (mkCar [] [] [] []))) 0.
