(* numpy.arctan2 and numpy.linspace over exact reals. *)
Require Import Reals List.
Import ListNotations.
Open Scope R_scope.

(* np.arctan2(y, x) as in gcode_block.py 145-166 and vehicles, values in (-pi, pi] (negative zeros do not exist here) *)
Definition atan2 (y x : R) : R :=
  if Rlt_dec 0 x then atan (y / x)
  else if Rlt_dec x 0 then (if Rle_dec 0 y then atan (y / x) + PI else atan (y / x) - PI)
  else if Rlt_dec 0 y then PI / 2
  else if Rlt_dec y 0 then - (PI / 2) else 0.

(* np.linspace(a, b, n) for n >= 2, as in gcode_block.py 145-166 and shape.py 79-102 *)
Definition linspace (a b : R) (n : nat) : list R :=
  map (fun k => a + INR k * ((b - a) / INR (n - 1))) (seq 0 n).
