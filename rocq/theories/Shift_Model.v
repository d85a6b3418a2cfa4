(** Model of the shifting and extrapolating transformations of
    omgtools/basics/spline_extra.py: shift_knot1_fwd, shift_knot1_bwd,
    shiftfirstknot_T, extrapolate, extrapolate_T, shift_over_knot,
    shiftoverknot_T.

    Simplifications: exact reals; a matrix is a function of row and column
    number, its sizes are written where it is used; the three number types of
    shiftfirstknot_T (numpy, SX, MX) are one; np.linalg.solve is exact
    elimination per column of the right hand side (gsolve of Splop_Model, None
    where it raises); the limit 1e-10 of extrapolate_T is a parameter; a
    raised exception is None. *)
From Coq Require Import Reals List Arith Bool.
From Verif Require Import Spline_Model Splop_Model.
Import ListNotations.
Local Open Scope R_scope.

(* used by shift_stage, spline_extra.py 234-242, 178-186 *)
Definition mat := nat -> nat -> R.

(** numpy: eye, sum over a range, dot of two matrices (n inner columns) and
    of a matrix and a vector; used by shift_stages, spline_extra.py 232-243, 176-187 *)
Definition eye : mat := fun i j => if (i =? j)%nat then 1 else 0.
(* used by inverse_row, spline_extra.py 249-252 *)
Definition rangesum (a n : nat) (f : nat -> R) : R := fold_left Rplus (map f (seq a n)) 0.
(* used by shift_stages, spline_extra.py 232-243, 176-187 *)
Definition mmul (n : nat) (A B : mat) : mat := fun i j => rangesum 0 n (fun k => A i k * B k j).
(* used by shift_knot1_fwd, spline_extra.py 194-204 *)
Definition mdot (rows n : nat) (A : mat) (c : list R) : list R :=
  map (fun i => rangesum 0 n (fun k => A i k * nth k c 0)) (seq 0 rows).

(** spline_extra.py 234-242, 178-186: the matrix _t of step k *)
Definition shift_stage (b : bbasis) (t : R) (k : nat) : mat := fun j c =>
  let deg := degree b in
  if (deg + 1 <=? j)%nat then (if (c =? j - 1)%nat then 1 else 0)
  else if (j <=? k)%nat then (if (c =? j)%nat then 1 else 0)
  else if (c =? j - 1)%nat then (kn b (j + deg - k) - t) / (kn b (j + deg - k) - kn b j)
  else if (c =? j)%nat then (t - kn b j) / (kn b (j + deg - k) - kn b j)
  else 0.

(** spline_extra.py 232-243, 176-187: the product _T after n steps *)
Fixpoint shift_stages (b : bbasis) (t : R) (n : nat) : mat :=
  match n with
  | O => eye
  | S k => mmul (degree b + 1 + k) (shift_stage b t k) (shift_stages b t k)
  end.

(** spline_extra.py 220-245: shiftfirstknot_T, the N x N matrix T *)
Definition shiftfirstknot (b : bbasis) (t : R) : mat := fun i j =>
  let deg := degree b in
  if (i <? deg + 1)%nat && (j <? deg + 1)%nat
  then shift_stages b t (deg + 1) (deg + 1 + i)%nat j else eye i j.

(** spline_extra.py 249-252: row i of the inverse, from the rows below it *)
Definition inverse_row (deg : nat) (T : mat) (i : nat) (M : mat) : mat := fun r c =>
  if (r =? i)%nat then
    if (c =? i)%nat then 1 / T i i
    else if (i <? c)%nat && (c <=? deg)%nat
    then (-1 / T i i) * rangesum (i + 1) (deg + 2 - (i + 1)) (fun k => T i k * M k c)
    else M r c
  else M r c.

(** spline_extra.py 248: the rows deg, deg-1, ..., deg-n+1 *)
Fixpoint inverse_rows (deg : nat) (T : mat) (n : nat) : mat :=
  match n with
  | O => eye
  | S n' => inverse_row deg T (deg - n') (inverse_rows deg T n')
  end.

(** spline_extra.py 246-253: the inverse; the sum at 251 reads row and column
    deg+1 of N x N matrices as soon as there is a j (deg > 0) *)
Definition shiftfirstknot_inv (b : bbasis) (t : R) : option mat :=
  let deg := degree b in
  if (0 <? deg)%nat && (blen b <=? deg + 1)%nat then None
  else Some (inverse_rows deg (shiftfirstknot b t) (deg + 1)).

(** spline_extra.py 194-204: shift_knot1_fwd *)
Definition shift_knot1_fwd (cfs : list R) (b : bbasis) (t : R) : list R :=
  mdot (blen b) (blen b) (shiftfirstknot b t) cfs.
(** spline_extra.py 207-217: shift_knot1_bwd *)
Definition shift_knot1_bwd (cfs : list R) (b : bbasis) (t : R) : option (list R) :=
  match shiftfirstknot_inv b t with
  | None => None
  | Some M => Some (mdot (blen b) (blen b) M cfs)
  end.

(** spline_extra.py 113-115, 171-173: the number of repeated inner knots; a
    negative index before the start raises *)
Fixpoint inner_repeat (fuel : nat) (b : bbasis) (m : nat) : option nat :=
  match fuel with
  | O => None
  | S f =>
    let L := length (knots b) in
    let d := degree b in
    if (d + 2 + m <=? L)%nat then
      if Rleb (kn b (L - d - 2)) (kn b (L - d - 2 - m)) then inner_repeat f b (m + 1) else Some m
    else None
  end.
(* with the above, spline_extra.py 113-115, 171-173 *)
Definition inner_mult (b : bbasis) : option nat := inner_repeat (length (knots b)) b 1.

(** spline_extra.py 116-118: knots2, basis2 *)
Definition extra_basis (b : bbasis) (m : nat) (t_extra : R) : bbasis :=
  let L := length (knots b) in
  let d := degree b in
  mkB (firstn (L - d - 1) (knots b) ++ repeat (kn b (L - d - 1)) m
       ++ repeat (last (knots b) 0 + t_extra) (d + 1)) d.

(** spline_extra.py 138-144: A1_tmp and B1_tmp of step i; [s] is the index of
    the first knot at the end: N for B1_tmp, N+m for A1_tmp *)
Definition diff_stage (ks : bbasis) (s : nat) (i : nat) : mat := fun j c =>
  let deg := degree ks in
  let h := kn ks (j + s) - kn ks (j + s + i - deg - 1) in
  if (c =? j)%nat then - INR (deg + 1 - i) / h
  else if (c =? j + 1)%nat then INR (deg + 1 - i) / h
  else 0.
(** spline_extra.py 136-145: A1 and B1 after step i *)
Fixpoint diff_stages (ks : bbasis) (s : nat) (i : nat) : mat :=
  match i with
  | O => eye
  | S i' => mmul (degree ks + 1 - i') (diff_stage ks s i) (diff_stages ks s i')
  end.

(** spline_extra.py 119-150: row i of A *)
Definition extra_A (b : bbasis) (m : nat) (t_extra : R) (i : nat) : list R :=
  let d := degree b in
  let N := blen b in
  let b2 := extra_basis b m t_extra in
  if (i <? d + 1 - m)%nat then
    let a := eval_basis b2 (nth (N - (d + 1 - m) + i) (greville b) 0) in
    map (fun q => if (q <? d + 1 - m)%nat then nth (N - d - 1 + m + q) a 0 else 0) (seq 0 (d + 1))
  else if (i =? 0)%nat then map (fun q => if (q =? 0)%nat then 1 else 0) (seq 0 (d + 1))
  else map (diff_stages b2 (N + m) i 0%nat) (seq 0 (d + 1)).
(** spline_extra.py 119-150: row i of B *)
Definition extra_B (b : bbasis) (m : nat) (t_extra : R) (i : nat) : list R :=
  let d := degree b in
  let N := blen b in
  if (i <? d + 1 - m)%nat then
    let x := nth (N - (d + 1 - m) + i) (greville b) 0 in
    let a := eval_basis (extra_basis b m t_extra) x in
    let c := eval_basis b x in
    map (fun q => if (q <? m)%nat then nth (N - d - 1 + q) c 0 - nth (N - d - 1 + q) a 0
                  else nth (N - d - 1 + q) c 0) (seq 0 (d + 1))
  else if (i =? 0)%nat then map (fun q => if (q =? d)%nat then 1 else 0) (seq 0 (d + 1))
  else map (diff_stages b N i (d - i)%nat) (seq 0 (d + 1)).

(** spline_extra.py 152-153: the columns of _T *)
Definition extra_cols (tol : R) (b : bbasis) (m : nat) (t_extra : R) : option (list (list R)) :=
  let d := degree b in
  oall (map (fun q =>
    match gsolve (d + 1)
       (map (fun i => (extra_A b m t_extra i, nth q (extra_B b m t_extra i) 0)) (seq 0 (d + 1))) with
    | None => None
    | Some x => Some (map (zap tol) x)
    end) (seq 0 (d + 1))).
(* with the above, spline_extra.py 152-153 *)
Definition cols_entry (cols : list (list R)) : mat := fun i q => nth i (nth q cols []) 0.

(** spline_extra.py 107-157: extrapolate_T, its number of rows and the matrix *)
Definition extrapolate_T (tol : R) (b : bbasis) (t_extra : R) : option (nat * mat) :=
  let d := degree b in
  let N := blen b in
  match inner_mult b with
  | None => None
  | Some m =>
    match extra_cols tol b m t_extra with
    | None => None
    | Some cols =>
      Some ((N + m)%nat, fun i j =>
        if (N + m - (d + 1) <=? i)%nat && (N - (d + 1) <=? j)%nat
        then cols_entry cols (i - (N + m - (d + 1)))%nat (j - (N - (d + 1)))%nat
        else eye i j)
    end
  end.
(** spline_extra.py 102-104: extrapolate *)
Definition extrapolate (tol : R) (c : list R) (t_extra : R) (b : bbasis) : option (list R) :=
  match extrapolate_T tol b t_extra with
  | None => None
  | Some (r, T) => Some (mdot r (blen b) T c)
  end.

(** spline_extra.py 165-191: shiftoverknot_T *)
Definition shiftoverknot_T (tol : R) (b : bbasis) : option mat :=
  let d := degree b in
  let N := blen b in
  let L := length (knots b) in
  match inner_mult b with
  | None => None
  | Some m =>
    let t_shift := kn b (d + 1) - kn b 0 in
    match extrapolate_T tol b (last (knots b) 0 - kn b (L - d - 2)) with
    | None => None
    | Some (r, TE) =>
      Some (fun i j =>
        if (N - (d + 1) <=? i)%nat && (N - (d + 1) <=? j)%nat
        then TE (r - (d + 1) + (i - (N - (d + 1))))%nat j
        else if (i <? d)%nat && (j <? d + 1)%nat
        then shift_stages b t_shift d (d + 1 + i)%nat j
        else if (j =? i + m)%nat then 1 else 0)
    end
  end.
(** spline_extra.py 160-162: shift_over_knot *)
Definition shift_over_knot (tol : R) (c : list R) (b : bbasis) : option (list R) :=
  match shiftoverknot_T tol b with
  | None => None
  | Some T => Some (mdot (blen b) (blen b) T c)
  end.
