(** Model of omgtools/basics/spline.py and spline_extra.py (B-spline part).

    Simplifications that hold for the whole file: numbers are exact reals;
    numpy arrays are lists; a call on an array of points is modelled by the
    call on one point; symbolic CasADi coefficients behave as numbers; the
    memoize / cached_class decorators (spline.py 39-83) are identity on
    results and are not modelled here. *)
From Coq Require Import Reals List Arith Bool ZArith.
Import ListNotations.
Local Open Scope R_scope.

(* used by ind, spline.py 131-136 *)
Definition Rleb (x y : R) : bool := if Rle_dec x y then true else false.
(* used by ind, spline.py 131-136 *)
Definition Rltb (x y : R) : bool := if Rlt_dec x y then true else false.
(* used by ind, spline.py 131-136 *)
Definition Reqb (x y : R) : bool := if Req_EM_T x y then true else false.
(* used by ind, spline.py 131-136 *)
Definition b2R (b : bool) : R := if b then 1 else 0.

(** spline.py 117-126: class Basis, knots and degree; __len__ *)
Record bbasis := mkB { knots : list R; degree : nat }.

(* used by ind, spline.py 131-136 *)
Definition kn (b : bbasis) (i : nat) : R := nth i (knots b) 0.

(* used by evalspline, spline_extra.py 28-55 *)
Definition blen (b : bbasis) : nat := (length (knots b) - degree b - 1)%nat.

(** spline.py 131-136: Basis._ind *)
Definition ind (b : bbasis) (i : nat) (x : R) : R :=
  if (i <? degree b + 1)%nat && Reqb (kn b 0) (kn b i)
  then b2R (Rleb (kn b i) x && Rleb x (kn b (i + 1)))
  else b2R (Rltb (kn b i) x && Rleb x (kn b (i + 1))).

(** spline.py 224-232: one pass of the inner loop of eval_basis *)
Definition next_row (b : bbasis) (x : R) (d : nat) (prev : list R) : list R :=
  map (fun i =>
    let bottom := kn b (i + d) - kn b i in
    let b1 := if Reqb bottom 0 then 0 * x
              else (x - kn b i) * nth i prev 0 / bottom in
    let bottom2 := kn b (i + d + 1) - kn b (i + 1) in
    if Reqb bottom2 0 then b1
    else b1 + (kn b (i + d + 1) - x) * nth (i + 1) prev 0 / bottom2)
  (seq 0 (length (knots b) - d - 1)).

(* used by eval_basis, spline.py 214-234 *)
Fixpoint basis_row (b : bbasis) (x : R) (d : nat) : list R :=
  match d with
  | O => map (fun i => ind b i x * 1) (seq 0 (length (knots b) - 1))
  | S d' => next_row b x (S d') (basis_row b x d')
  end.

(** spline.py 214-234: BSplineBasis.eval_basis (one evaluation point: one row
    of the returned matrix) *)
Definition eval_basis (b : bbasis) (x : R) : list R := basis_row b x (degree b).

(** numpy dot product of two vectors; with spline.py 214-234 *)
Fixpoint dot (u v : list R) : R :=
  match u, v with
  | a :: u', c :: v' => a * c + dot u' v'
  | _, _ => 0
  end.

(** spline.py 365-374: class Spline, __call__ *)
Record bspline := mkS { sbasis : bbasis; coeffs : list R }.

(* with the above, spline.py 365-374 *)
Definition call (s : bspline) (x : R) : R := dot (eval_basis (sbasis s) x) (coeffs s).

(** spline_extra.py 28-55: evalspline, the symbolic evaluation; it repeats the
    recursion of eval_basis and adds the products coefficient times basis in
    the order l = 0, 1, ... *)
Definition evalspline (s : bspline) (x : R) : R :=
  fold_left (fun r l => r + nth l (coeffs s) 0 * nth l (eval_basis (sbasis s) x) 0)
            (seq 0 (blen (sbasis s))) 0.

(** spline.py 395-417: BSpline.__add__, __neg__, __sub__ when both operands
    have the same basis object, and with a number.  Simplification: for equal
    bases basis.transform(self.basis) is taken to be the identity matrix (the
    exact solution of the linear system it solves). *)
Definition add_same (s1 s2 : bspline) : bspline :=
  mkS (sbasis s1) (map (fun p => fst p + snd p) (combine (coeffs s1) (coeffs s2))).
(* with the above, spline.py 395-417 *)
Definition add_num (s : bspline) (a : R) : bspline :=
  mkS (sbasis s) (map (fun c => c + a) (coeffs s)).
(* with the above, spline.py 395-417 *)
Definition neg (s : bspline) : bspline := mkS (sbasis s) (map Ropp (coeffs s)).
(* with the above, spline.py 395-417 *)
Definition sub_same (s1 s2 : bspline) : bspline := add_same s1 (neg s2).
(** spline.py 437-441: multiplication with a number *)
Definition mul_num (s : bspline) (a : R) : bspline :=
  mkS (sbasis s) (map (fun c => a * c) (coeffs s)).

(** spline.py 249-260: BSplineBasis.derivative and 464-469 BSpline.derivative.
    The matrix P is not built: the factors (degree-i)*T are applied one after
    the other to the coefficient vector (same value by associativity). *)
Definition trim (l : list R) : list R := removelast (tl l).   (* knots[1:-1] *)

(* with the above, spline.py 249-260 *)
Definition deriv_step (p : nat) (ks : list R) (c : list R) : list R :=
  map (fun j =>
    let delta := nth (j + p) ks 0 - nth j ks 0 in
    INR p * ((-1 / delta) * nth j c 0 + (1 / delta) * nth (j + 1) c 0))
  (seq 0 (length c - 1)).

(* with the above, spline.py 249-260 *)
Fixpoint deriv_loop (o i deg : nat) (ks c : list R) : list R :=
  match o with
  | O => c
  | S o' => let ks' := trim ks in
            deriv_loop o' (S i) deg ks' (deriv_step (deg - i) ks' c)
  end.

(* with the above, spline.py 249-260 *)
Definition slice_oo (o : nat) (l : list R) : list R :=   (* l[o:-o], o >= 1 *)
  firstn (length l - 2 * o) (skipn o l).

(* with the above, spline.py 249-260 *)
Definition derivative (s : bspline) (o : nat) : bspline :=
  match o with
  | O => s
  | S _ =>
    let b := sbasis s in
    mkS (mkB (slice_oo o (knots b)) (degree b - o))
        (deriv_loop o 0 (degree b) (knots b) (coeffs s))
  end.

(** spline.py 477-487: BSpline.integral *)
Definition integral (s : bspline) : R :=
  let b := sbasis s in
  let d := degree b in
  let K := map (fun i => (kn b (i + (d + 1)) - kn b i) / (INR d + 1))
               (seq 0 (length (knots b) - (d + 1))) in
  fold_left Rplus (map (fun p => fst p * snd p) (combine K (coeffs s))) 0.

(** spline_extra.py 58-76: running_integral *)
Fixpoint cumul (b : bbasis) (c : list R) (i : nat) (n : nat) (acc : R) : list R :=
  match n with
  | O => []
  | S n' =>
    let v := acc + (kn b (degree b + i + 1) - kn b i) / (INR (degree b + 1)) * nth i c 0 in
    v :: cumul b c (S i) n' v
  end.

(* used by definite_integral, spline_extra.py 79-85 *)
Definition running_integral (s : bspline) : bspline :=
  let b := sbasis s in
  let ks := [hd 0 (knots b)] ++ knots b ++ [last (knots b) 0] in
  let bi := mkB ks (degree b + 1) in
  mkS bi (0 :: cumul b (coeffs s) 0 (blen bi - 1) 0).

(** spline_extra.py 79-85: definite_integral *)
Definition definite_integral (s : bspline) (a b : R) : R :=
  evalspline (running_integral s) b - evalspline (running_integral s) a.

(** spline.py 201-205 Basis.scale and 508-512 BSpline.scale *)
Definition scale_basis (b : bbasis) (f sft : R) : bbasis :=
  mkB (map (fun k => k * f + sft) (knots b)) (degree b).
(* with the above, spline.py 201-205 *)
Definition scale (s : bspline) (f sft : R) : bspline :=
  mkS (scale_basis (sbasis s) f sft) (coeffs s).

(** Python's sorted() on numbers; with spline.py 201-205 *)
Fixpoint insert_sorted (t : R) (l : list R) : list R :=
  match l with
  | [] => [t]
  | a :: l' => if Rleb t a then t :: l else a :: insert_sorted t l'
  end.
(* with the above, spline.py 201-205 *)
Fixpoint py_sorted (l : list R) : list R :=
  match l with [] => [] | a :: l' => insert_sorted a (py_sorted l') end.

(** spline_extra.py 266-276: one knot insertion; row j of _T applied to the
    coefficient vector c of length N *)
Definition ins_weight (ks : list R) (deg : nat) (t : R) (j : nat) : R :=
  if Rleb t (nth j ks 0) then 0
  else if Rltb (nth j ks 0) t && Rltb t (nth (j + deg + 1 - 1) ks 0)
       then (t - nth j ks 0) / (nth (j + deg + 1 - 1) ks 0 - nth j ks 0)
       else 1.

(* used by knot_insertion, spline_extra.py 258-280 *)
Definition ins_coeffs (ks : list R) (deg : nat) (t : R) (c : list R) : list R :=
  let N := length c in
  map (fun j =>
    let w := ins_weight ks deg t j in
    (if (j =? 0)%nat then 0 else (1 - w) * nth (j - 1) c 0)
    + (if (j =? N)%nat then 0 else w * nth j c 0))
  (seq 0 (N + 1)).

(** spline_extra.py 258-280: knot_insertion_T applied to a coefficient vector
    (the product of the matrices _T is applied factor by factor); returns the
    new knots as well *)
Fixpoint knot_insertion (ks : list R) (deg : nat) (ts : list R) (c : list R)
  : list R * list R :=
  match ts with
  | [] => (c, ks)
  | t :: ts' => knot_insertion (py_sorted (ks ++ [t])) deg ts' (ins_coeffs ks deg t c)
  end.

(** numpy.searchsorted; with spline_extra.py 258-280 *)
Definition searchsorted_left (l : list R) (v : R) : nat :=
  length (filter (fun a => Rltb a v) l).
(* with the above, spline_extra.py 258-280 *)
Definition searchsorted_right (l : list R) (v : R) : nat :=
  length (filter (fun a => Rleb a v) l).

(** spline_extra.py 283-305: get_interval_T and crop_spline.  searchsorted is
    specified on sorted arrays, where it is the number of smaller (or equal)
    elements. *)
Definition count_eq (l : list R) (v : R) : nat := length (filter (fun a => Reqb a v) l).

(* with the above, spline_extra.py 283-305 *)
Definition crop_spline (s : bspline) (lo hi : R) : bspline :=
  let b := sbasis s in
  let deg := degree b in
  let n_min := count_eq (knots b) lo in
  let n_max := count_eq (knots b) hi in
  let '(c2, k2) := knot_insertion (knots b) deg
        (repeat lo (deg + 1 - n_min) ++ repeat hi (deg + 1 - n_max)) (coeffs s) in
  let jmin := searchsorted_left k2 lo in
  let jmax := searchsorted_right k2 hi in
  mkS (mkB (firstn (jmax - jmin) (skipn jmin k2)) deg)
      (firstn (jmax - deg - 1 - jmin) (skipn jmin c2)).

(** spline.py 196-199: Basis.greville *)
Definition greville (b : bbasis) : list R :=
  map (fun k => 1 / INR (degree b)
         * fold_left Rplus (map (kn b) (seq (k + 1) (degree b))) 0)
      (seq 0 (blen b)).

(** spline.py 181-182: Basis.__eq__ (same shape, all knots equal, same degree) *)
Fixpoint all_equal (l l' : list R) : bool :=
  match l, l' with
  | a :: q, c :: q' => Reqb a c && all_equal q q'
  | _, _ => true
  end.
(* with the above, spline.py 181-182 *)
Definition basis_eq (b1 b2 : bbasis) : bool :=
  (length (knots b1) =? length (knots b2))%nat && all_equal (knots b1) (knots b2)
  && (degree b1 =? degree b2)%nat.

(** spline.py 184-189: Basis.__hash__, xor of the hashes; [hd] and [hk] are
    Python's hash on ints and floats *)
Definition basis_hash (hd : nat -> Z) (hk : R -> Z) (b : bbasis) : Z :=
  fold_left (fun r e => Z.lxor r (hk e)) (knots b) (hd (degree b)).
