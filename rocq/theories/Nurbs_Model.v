(** Model of the rational and the tensor product splines of
    omgtools/basics/spline.py.

    Simplifications: as in Splop_Model; a call on an array of points is modelled
    by the call on one point; a division by zero, for which numpy returns nan or
    inf, is None; the division s1 / s2 is the method __div__ (which only Python 2
    calls for /); coefficients are numbers (no cvxpy or cvxopt variables). *)
From Coq Require Import Reals List Arith Bool ZArith.
From Verif Require Import Spline_Model Splop_Model.
Import ListNotations.
Local Open Scope R_scope.

(** ** Rational splines *)
(** spline.py 327-331, 365-369, 515-519: a Nurbs: its B-spline basis, the
    weights and the coefficients *)
Record nurbs := mkN { nbasis : bbasis; weights : list R; ncoeffs : list R }.
(** elementwise product of arrays (spline.py 340, 518) *)
Definition times2 (u v : list R) : list R := map (fun p => fst p * snd p) (combine u v).
(** spline.py 333-340: NurbsBasis.eval_basis at one point *)
Definition nurbs_row (n : nurbs) (x : R) : list R :=
  let B := eval_basis (nbasis n) x in
  map (fun v => v / dot B (weights n)) (times2 B (weights n)).
(** spline.py 373-374: Spline.__call__ *)
Definition ncall (n : nurbs) (x : R) : R := dot (nurbs_row n x) (ncoeffs n).
(** spline.py 518-519: numerator and denominator *)
Definition num (n : nurbs) : bspline := mkS (nbasis n) (times2 (ncoeffs n) (weights n)).
(* with the above, spline.py 519 *)
Definition den (n : nurbs) : bspline := mkS (nbasis n) (weights n).
(** elementwise quotient of arrays; None: nan or inf (spline.py 461, 547) *)
Definition over (u w : list R) : option (list R) :=
  if forallb (fun v => negb (Reqb v 0)) w then Some (map (fun p => fst p / snd p) (combine u w)) else None.
(** spline.py 458-462: BSpline.__div__ *)
Definition div_spline (tol : R) (s1 s2 : bspline) : option nurbs :=
  let b := basis_add (sbasis s1) (sbasis s2) in
  match transform_basis tol b (sbasis s2), transform_basis tol b (sbasis s1) with
  | Some T2, Some T1 =>
      let w := cols_dot (blen b) T2 (coeffs s2) in
      match over (cols_dot (blen b) T1 (coeffs s1)) w with
      | Some c => Some (mkN b w c)
      | None => None
      end
  | _, _ => None
  end.
(** spline.py 521-523: Nurbs.__mul__ with a BSpline *)
Definition nmul (tol : R) (n : nurbs) (s : bspline) : option nurbs :=
  match mul_spline tol (num n) s with Some m => div_spline tol m (den n) | None => None end.
(** spline.py 521-523 with 437-441: with a number *)
Definition nmul_num (tol : R) (n : nurbs) (a : R) : option nurbs := div_spline tol (mul_num (num n) a) (den n).
(** spline.py 527-529: Nurbs.__add__ with a Nurbs *)
Definition nadd (tol : R) (n1 n2 : nurbs) : option nurbs :=
  match mul_spline tol (num n1) (den n2), mul_spline tol (den n1) (num n2), mul_spline tol (den n1) (den n2) with
  | Some p, Some q, Some d => match add_spline tol p q with Some s => div_spline tol s d | None => None end
  | _, _, _ => None
  end.
(** spline.py 531-549: Nurbs.derivative of order 1 *)
Definition nderiv (tol : R) (n : nurbs) : option nurbs :=
  let b := nbasis n in
  let dnum := derivative (num n) 1 in
  let dden := derivative (den n) 1 in
  let db := mkB (slice_oo 1 (knots b)) (degree b - 1) in
  let ps := pairs b db in
  match pow_spline tol (den n) 2 with
  | None => None
  | Some d2 =>
      let b2 := sbasis d2 in
      let cp := map (fun p => nth (snd p) (coeffs dnum) 0 * nth (fst p) (coeffs (den n)) 0
                              - nth (fst p) (coeffs (num n)) 0 * nth (snd p) (coeffs dden) 0) ps in
      match transform tol b2 (product_row b2 b db) (length ps) with
      | None => None
      | Some T =>
          match over (cols_dot (blen b2) T cp) (coeffs d2) with
          | Some c => Some (mkN b2 (coeffs d2) c)
          | None => None
          end
      end
  end.
(** spline.py 531-556: Nurbs.derivative of order o; order 0 never ends *)
Fixpoint nderivs (tol : R) (n : nurbs) (o : nat) : option nurbs :=
  match o with
  | O => None
  | 1%nat => nderiv tol n
  | S o' => match nderiv tol n with Some m => nderivs tol m o' | None => None end
  end.
(** spline.py 558-564: Nurbs.insert_knots *)
Definition ninsert (tol : R) (n : nurbs) (ts : list R) : option nurbs :=
  let b := insert_knots_basis (nbasis n) ts in
  match transform_basis tol b (nbasis n) with
  | Some T => Some (mkN b (cols_dot (blen b) T (weights n)) (cols_dot (blen b) T (ncoeffs n)))
  | None => None
  end.

(** ** Tensor product splines *)
(** a numpy array: its entry at a list of indices (used by TensorBSpline,
    spline.py 567-681) *)
Definition array := list nat -> R.
(** spline.py 567-572: TensorBSpline; var is left out, as sums are only formed
    of splines in the same variables *)
Record tensor := mkT { tbasis : list bbasis; tcoeffs : array }.
(** numpy.inner of a vector and an array: the sum over the last axis; used in
    spline.py 593-595, 677-679 *)
Definition inner (v : list R) (a : array) : array :=
  fun idx => dot v (map (fun j => a (idx ++ [j])) (seq 0 (length v))).
(** spline.py 593-596: the last axis first *)
Fixpoint contract (vs : list (list R)) (a : array) : array :=
  match vs with [] => a | v :: r => contract r (inner v a) end.
(** spline.py 589-596: TensorBSpline.__call__ *)
Definition tcall (t : tensor) (xs : list R) : R :=
  contract (rev (map (fun p => eval_basis (fst p) (snd p)) (combine (tbasis t) xs))) (tcoeffs t) [].
(** replacing entry i of a list of indices; used by along, spline.py 613 *)
Fixpoint put (i : nat) (j : nat) (idx : list nat) : list nat :=
  match i, idx with
  | _, [] => []
  | O, _ :: r => j :: r
  | S i', a :: r => a :: put i' j r
  end.
(** spline.py 613, 616, 648: swapaxes(0, i), tensordot with a matrix (here the
    list of its columns), swapaxes(0, i): the matrix acts on axis i *)
Definition along (i : nat) (cols : list (list R)) (a : array) : array :=
  fun idx => dot (map (fun col => nth (nth i idx 0%nat) col 0) cols) (map (fun j => a (put i j idx)) (seq 0 (length cols))).
(** spline.py 612-613: all axes, the first one first *)
Fixpoint all_along (i : nat) (Ts : list (list (list R))) (a : array) : array :=
  match Ts with [] => a | T :: r => all_along (S i) r (along i T a) end.
(** spline.py 608-610: map over two lists *)
Definition map2 {A B C} (f : A -> B -> C) (l : list A) (l' : list B) : list C := map (fun p => f (fst p) (snd p)) (combine l l').
(** spline.py 598-617, 624: the sum of two splines in the same variables *)
Definition tadd (tol : R) (t1 t2 : tensor) : option tensor :=
  let bs := map2 basis_add (tbasis t1) (tbasis t2) in
  match oall (map2 (transform_basis tol) bs (tbasis t1)), oall (map2 (transform_basis tol) bs (tbasis t2)) with
  | Some T1, Some T2 =>
      let a1 := all_along 0 T1 (tcoeffs t1) in let a2 := all_along 0 T2 (tcoeffs t2) in
      Some (mkT bs (fun idx => a1 idx + a2 idx))
  | _, _ => None
  end.
(** spline.py 618-624: with a number *)
Definition tadd_num (t : tensor) (a : R) : tensor := mkT (tbasis t) (fun idx => tcoeffs t idx + a).
(** spline.py 628-634: __neg__, __sub__; __rsub__ is __sub__ *)
Definition tneg (t : tensor) : tensor := mkT (tbasis t) (fun idx => - tcoeffs t idx).
(* with the above, spline.py 631-632 *)
Definition tsub (tol : R) (t1 t2 : tensor) : option tensor := tadd tol t1 (tneg t2).
(* with the above, spline.py 634: number - spline *)
Definition trsub_num (a : R) (t : tensor) : tensor := tadd_num t (- a).
(** spline.py 653-659: __mul__ with a number *)
Definition tmul_num (t : tensor) (a : R) : tensor := mkT (tbasis t) (fun idx => tcoeffs t idx * a).
(** spline.py 636-649: the product.  One variable: pairs[1] raises (line 643);
    more than two: an exception is returned, not a spline (line 639) *)
Definition tmul (tol : R) (t1 t2 : tensor) : option tensor :=
  match tbasis t1, tbasis t2 with
  | [a0; a1], [b0; b1] =>
      let m0 := basis_mul a0 b0 in let m1 := basis_mul a1 b1 in
      let p0 := pairs a0 b0 in let p1 := pairs a1 b1 in
      let prod : array := fun idx =>
        let i := nth (nth 0 idx 0%nat) p0 (0%nat, 0%nat) in let j := nth (nth 1 idx 0%nat) p1 (0%nat, 0%nat) in
        tcoeffs t1 [fst i; fst j] * tcoeffs t2 [snd i; snd j] in
      match transform tol m0 (product_row m0 a0 b0) (length p0), transform tol m1 (product_row m1 a1 b1) (length p1) with
      | Some T0, Some T1 => Some (mkT [m0; m1] (all_along 0 [T0; T1] prod))
      | _, _ => None
      end
  | _, _ => None
  end.
(** spline.py 672-673: the integrals of the basis functions *)
Definition spans_of (b : bbasis) : list R :=
  map (fun i => (kn b (i + (degree b + 1)) - kn b i) / (INR (degree b) + 1)) (seq 0 (length (knots b) - (degree b + 1))).
(** spline.py 677-680: the axes in the order last, first, second, ...; inner
    raises when the length does not fit the last axis; ns: lengths of the axes *)
Fixpoint inners (Ks : list (list R)) (ns : list nat) (a : array) : option R :=
  match Ks with
  | [] => Some (a [])
  | K :: r => if (length K =? last ns 0)%nat then inners r (removelast ns) (inner K a) else None
  end.
(** spline.py 663-680: TensorBSpline.integral; with two variables a product of
    cvxopt matrices (line 675) *)
Definition tintegral (t : tensor) : option R :=
  let Ks := map spans_of (tbasis t) in
  match Ks with
  | [] => None
  | [K0; K1] => Some (dot K0 (map (fun i => dot (map (fun j => tcoeffs t [i; j]) (seq 0 (length K1))) K1) (seq 0 (length K0))))
  | _ => inners (last Ks [] :: removelast Ks) (map (@length R) Ks) (tcoeffs t)
  end.
