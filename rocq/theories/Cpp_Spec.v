(** What the exported vehicle and its clock should do. *)
From Coq Require Import Reals List Arith Bool ZArith.
From Verif Require Import Export_Model Cpp_Model.
Import ListNotations.
Local Open Scope R_scope.

(** integral of the input that is linear between samples, component j *)
Definition trapezoid (dt : R) (input : list vec) (steps j : nat) : R :=
  acc_sum steps (fun i => dt * (nth j (nth i input []) 0 + nth j (nth (S i) input []) 0) / 2).

(** clock at the beginning *)
Definition clock0 : clock := mkK 0 0 0 0.

(** updates without prediction shift, one verdict per call *)
Definition p2p_run (ki : nat) (T u dt : R) (oks : list bool) : clock :=
  fold_left (fun k ok => p2p_update ki T u dt 0 ok k) oks clock0.

Definition admm_run (ki : nat) (T u dt : R) (init : nat) (oks : list bool) : clock :=
  fold_left (fun k ok => admm_update1 ki T u dt init 0 ok k) oks clock0.

(** number of successful updates *)
Definition successes (oks : list bool) : nat := count_occ Bool.bool_dec oks true.
