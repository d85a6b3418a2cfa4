(** Vocabulary for what a simulation keeps. *)
From Coq Require Import QArith ZArith List Arith.
From Verif Require Import Memo_Model.
Import ListNotations.

(** the calls simulate whole numbers of samples, for which there is a plan:
    plan, number of samples *)
Inductive whole_calls (ts : Q) : list (nat * nat * Q) -> list (nat * nat) -> Prop :=
| Whole_nil : whole_calls ts [] []
| Whole_cons : forall p n t k calls ks, (t == inject_Z (Z.of_nat k) * ts)%Q -> (k < n)%nat ->
    whole_calls ts calls ks -> whole_calls ts ((p, n, t) :: calls) ((p, k) :: ks).
(** the executed samples in order: plan and index *)
Definition executed (ks : list (nat * nat)) : list label :=
  flat_map (fun pk => map (fun j => (fst pk, S j)) (seq 0 (snd pk))) ks.
(** the double precision numbers 0.3 and 0.1 *)
Definition three_tenths : Q := 5404319552844595 # 18014398509481984.
Definition one_tenth : Q := 3602879701896397 # 36028797018963968.
(** who is given: the vehicles of an argument of a problem, in order *)
Definition given (i : item) : list nat :=
  match i with IVehicle v => [v] | IFleet f => f_vehicles f | IOther => [] end.
Definition all_given (a : argument) : list nat :=
  match a with AItem i => given i | AList l => flat_map given l end.
