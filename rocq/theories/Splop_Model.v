(** Model of the spline algebra of omgtools/basics/spline.py on different
    bases: combined bases, basis transformation, sum, product, power and knot
    insertion.

    Simplifications that hold for the whole file: numbers are exact reals;
    scipy.linalg.solve is exact Gaussian elimination (below), which fails
    exactly when it finds no pivot, as the LAPACK routine raises LinAlgError
    on an exactly zero pivot; matrices are lists of rows or, where said so, of
    columns; sparse and CasADi matrices behave as plain ones. *)
From Coq Require Import Reals List Arith Bool ZArith.
From Verif Require Import Spline_Model.
Import ListNotations.
Local Open Scope R_scope.

(** spline.py 140-141: Counter(knots).get(b, -inf) + degree - basis.degree;
    None stands for minus infinity *)
Definition occurrences (l : list R) (t : R) : nat := count_occ Req_EM_T l t.
(* with the above, spline.py 140-141 *)
Definition lifted (b : bbasis) (deg : nat) (t : R) : option Z :=
  match occurrences (knots b) t with
  | O => None
  | S n => Some (Z.of_nat (S n) + Z.of_nat deg - Z.of_nat (degree b))%Z
  end.
(* with the above, spline.py 140-141 *)
Definition omax (a b : option Z) : option Z :=
  match a, b with
  | None, y => y
  | x, None => x
  | Some x, Some y => Some (Z.max x y)
  end.
(** [b] * m for a list repeated m times: empty for m <= 0; used by combine_bases, spline.py 138-148 *)
Definition times (t : R) (m : option Z) : list R :=
  match m with None => [] | Some z => repeat t (Z.to_nat z) end.

(** spline.py 138-148: Basis._combine.  The set of break points is the
    duplicate-free list of all knots; its order does not matter because the
    result is sorted. *)
Definition combine_bases (b1 b2 : bbasis) (deg : nat) : bbasis :=
  let breaks := nodup Req_EM_T (knots b1 ++ knots b2) in
  mkB (py_sorted (flat_map (fun t => times t (omax (lifted b1 deg t) (lifted b2 deg t))) breaks)) deg.

(** spline.py 150-157, 163-170, 174-179: Basis.__add__, __mul__, __pow__ *)
Definition basis_add (b1 b2 : bbasis) : bbasis := combine_bases b1 b2 (Nat.max (degree b1) (degree b2)).
(* with the above, spline.py 150-157, 163-170, 174-179 *)
Definition basis_mul (b1 b2 : bbasis) : bbasis := combine_bases b1 b2 (degree b1 + degree b2).
(* with the above, spline.py 150-157, 163-170, 174-179 *)
Definition basis_pow (b : bbasis) (n : nat) : bbasis := combine_bases b b (n * degree b).

(** spline.py 191-194: Basis.insert_knots; np.setdiff1d gives the sorted
    distinct values that are not knots yet *)
Definition insert_knots_basis (b : bbasis) (ts : list R) : bbasis :=
  let new := filter (fun t => negb (existsb (Reqb t) (knots b))) (py_sorted (nodup Req_EM_T ts)) in
  mkB (py_sorted (knots b ++ new)) (degree b).

(** spline.py 36, 123: NO_POINTS and Basis._x = linspace(knots[0], knots[-1]) *)
Definition no_points : nat := 501.
(* with the above, spline.py 36, 123 *)
Definition grid_pt (b : bbasis) (i : nat) : R :=
  hd 0 (knots b) + INR i * ((last (knots b) 0 - hd 0 (knots b)) / INR (no_points - 1)).

(** numpy.argmax: position of the first maximum; with spline.py 283-306 *)
Fixpoint argmax_go (l : list R) (i best : nat) (v : R) : nat :=
  match l with
  | [] => best
  | a :: l' => if Rltb v a then argmax_go l' (S i) i a else argmax_go l' (S i) best v
  end.
(* with the above, spline.py 283-306 *)
Definition argmax (l : list R) : nat :=
  match l with [] => 0%nat | a :: l' => argmax_go l' 1 0 a end.

(** exact Gaussian elimination for one right-hand side; a row is the pair of
    its coefficients and its right-hand side; with spline.py 283-306 *)
Fixpoint take_pivot (rows : list (list R * R)) : option ((list R * R) * list (list R * R)) :=
  match rows with
  | [] => None
  | r :: rest =>
    if Reqb (hd 0 (fst r)) 0
    then match take_pivot rest with
         | None => None
         | Some (p, others) => Some (p, r :: others)
         end
    else Some (r, rest)
  end.
(* with the above, spline.py 283-306 *)
Definition eliminate (p r : list R * R) : list R * R :=
  let f := hd 0 (fst r) / hd 0 (fst p) in
  (map (fun q => fst q - f * snd q) (combine (tl (fst r)) (tl (fst p))), snd r - f * snd p).
(* with the above, spline.py 283-306 *)
Fixpoint gsolve (n : nat) (rows : list (list R * R)) : option (list R) :=
  match n with
  | O => match rows with [] => Some [] | _ => None end
  | S n' =>
    match take_pivot rows with
    | None => None
    | Some (p, rest) =>
      match gsolve n' (map (eliminate p) rest) with
      | None => None
      | Some x => Some ((snd p - dot (tl (fst p)) x) / hd 0 (fst p) :: x)
      end
    end
  end.

(** sequence of optional results; used by transform, spline.py 283-306 *)
Fixpoint oall {A} (l : list (option A)) : option (list A) :=
  match l with
  | [] => Some []
  | None :: _ => None
  | Some a :: l' => match oall l' with None => None | Some r => Some (a :: r) end
  end.

(** spline.py 305: T[abs(T) < TOL] = 0 *)
Definition zap (tol t : R) : R := if Rltb (Rabs t) tol then 0 else t.

(** spline.py 292-293: the grid positions where the basis functions have
    their (first) maximum *)
Definition maxpos (b : bbasis) (j : nat) : nat :=
  argmax (map (fun i => nth j (eval_basis b (grid_pt b i)) 0) (seq 0 no_points)).
(** spline.py 293, 299, 302-304: the matrix b[m, :] of the linear system *)
Definition colloc (b : bbasis) : list (list R) :=
  map (fun j => eval_basis b (grid_pt b (maxpos b j))) (seq 0 (blen b)).

(** spline.py 283-306: BSplineBasis.transform.  [other i] is the row of the
    other side at grid position i (line 297: the other basis at xmax; line
    302: the row of the product), with [w] entries.  The result is the list
    of the columns of T.  Lines 299-300 always raise for the product (xmax is
    not an index), so line 302 is the one that counts. *)
Definition transform (tol : R) (b : bbasis) (other : nat -> list R) (w : nat)
  : option (list (list R)) :=
  oall (map (fun c =>
    match gsolve (blen b)
            (combine (colloc b) (map (fun j => nth c (other (maxpos b j)) 0) (seq 0 (blen b)))) with
    | None => None
    | Some x => Some (map (zap tol) x)
    end) (seq 0 w)).
(* with the above, spline.py 283-306 *)
Definition transform_basis (tol : R) (b b1 : bbasis) : option (list (list R)) :=
  transform tol b (fun i => eval_basis b1 (grid_pt b i)) (blen b1).

(** T.dot(c) for T given by its columns; used by add_spline, spline.py 395-407 *)
Definition cols_dot (n : nat) (cols : list (list R)) (c : list R) : list R :=
  map (fun i => dot (map (fun col => nth i col 0) cols) c) (seq 0 n).

(** spline.py 395-407: BSpline.__add__ of two splines.  None: la.solve raised *)
Definition add_spline (tol : R) (s1 s2 : bspline) : option bspline :=
  let b := basis_add (sbasis s1) (sbasis s2) in
  match transform_basis tol b (sbasis s1), transform_basis tol b (sbasis s2) with
  | Some T1, Some T2 =>
    Some (mkS b (map (fun p => fst p + snd p)
                   (combine (cols_dot (blen b) T1 (coeffs s1)) (cols_dot (blen b) T2 (coeffs s2)))))
  | _, _ => None
  end.
(** spline.py 410-417: __neg__ and __sub__ *)
Definition sub_spline (tol : R) (s1 s2 : bspline) : option bspline := add_spline tol s1 (neg s2).

(** spline.py 262-281: support and pairs: index pairs with overlapping
    supports, in the order of np.where (row by row) *)
Definition support (b : bbasis) (i : nat) : R * R := (kn b i, kn b (i + degree b + 1)).
(* with the above, spline.py 262-281 *)
Definition overlap (p q : R * R) : bool := Rltb (Rmax (fst p) (fst q)) (Rmin (snd p) (snd q)).
(* with the above, spline.py 262-281 *)
Definition pairs (b1 b2 : bbasis) : list (nat * nat) :=
  flat_map (fun i => map (fun j => (i, j))
     (filter (fun j => overlap (support b1 i) (support b2 j)) (seq 0 (blen b2))))
   (seq 0 (blen b1)).

(** spline.py 419-443: BSpline.__mul__ of two splines *)
Definition product_row (b b1 b2 : bbasis) (i : nat) : list R :=
  map (fun p => nth (fst p) (eval_basis b1 (grid_pt b i)) 0 * nth (snd p) (eval_basis b2 (grid_pt b i)) 0)
      (pairs b1 b2).
(* with the above, spline.py 419-443 *)
Definition mul_spline (tol : R) (s1 s2 : bspline) : option bspline :=
  let b := basis_mul (sbasis s1) (sbasis s2) in
  let ps := pairs (sbasis s1) (sbasis s2) in
  match transform tol b (product_row b (sbasis s1) (sbasis s2)) (length ps) with
  | Some T => Some (mkS b (cols_dot (blen b) T
                     (map (fun p => nth (fst p) (coeffs s1) 0 * nth (snd p) (coeffs s2) 0) ps)))
  | None => None
  end.

(** spline.py 448-456: BSpline.__pow__ (for i in range(1, power): a *= self) *)
Fixpoint pow_go (tol : R) (s a : bspline) (k : nat) : option bspline :=
  match k with
  | O => Some a
  | S k' => match mul_spline tol a s with None => None | Some a' => pow_go tol s a' k' end
  end.
(* with the above, spline.py 448-456 *)
Definition pow_spline (tol : R) (s : bspline) (power : Z) : option bspline :=
  pow_go tol s s (Z.to_nat (power - 1)).

(** spline.py 471-475: BSpline.insert_knots *)
Definition insert_knots (tol : R) (s : bspline) (ts : list R) : option bspline :=
  let b := insert_knots_basis (sbasis s) ts in
  match transform_basis tol b (sbasis s) with
  | Some T => Some (mkS b (cols_dot (blen b) T (coeffs s)))
  | None => None
  end.

(** the value of the default argument TOL (spline.py 283) *)
Definition code_tol : R := / 10 ^ 10.
