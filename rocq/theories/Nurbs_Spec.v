(** Independent vocabulary for rational and tensor product splines. *)
From Coq Require Import Reals List Arith.
From Verif Require Import Spline_Model Spline_Spec Splop_Model Splop_Spec Nurbs_Model.
Import ListNotations.
Local Open Scope R_scope.

(** one weight and one coefficient for every basis function *)
Definition nsized (n : nurbs) : Prop := length (weights n) = blen (nbasis n) /\ length (ncoeffs n) = blen (nbasis n).
(** the basis has no knots strictly between lo and hi *)
Definition no_inner (b : bbasis) (lo hi : R) : Prop := forall t, In t (knots b) -> ~ lo < t < hi.
(** g is the o-th derivative of f between lo and hi *)
Fixpoint nth_deriv (o : nat) (f : R -> R) (lo hi : R) (g : R -> R) : Prop :=
  match o with
  | O => forall x, lo < x < hi -> g x = f x
  | S o' => exists h, (forall x, lo < x < hi -> derivable_pt_lim f x (h x)) /\ nth_deriv o' h lo hi g
  end.
(** the value of a tensor product spline: the coefficients times the products
    of the basis functions, summed over all indices *)
Fixpoint tsum (bs : list bbasis) (xs : list R) (c : list nat -> R) : R :=
  match bs, xs with
  | b :: bs', x :: xs' => total (map (fun i => nth i (eval_basis b x) 0 * tsum bs' xs' (fun idx => c (i :: idx))) (seq 0 (blen b)))
  | _, _ => c []
  end.
(** a point of a box, and bases clamped on its sides *)
Definition box := list (R * R).
Definition in_box (X : box) (xs : list R) : Prop := Forall2 (fun I x => fst I <= x <= snd I) X xs.
Definition clamped_box (X : box) (bs : list bbasis) : Prop := Forall2 (fun I b => clamped_on b (fst I) (snd I)) X bs.
(** the integral over one variable after the other, the last one first *)
Fixpoint tint (bs : list bbasis) (c : list nat -> R) : R :=
  match bs with
  | b :: bs' => integral (mkS b (map (fun i => tint bs' (fun idx => c (i :: idx))) (seq 0 (blen b))))
  | [] => c []
  end.
