(** Model of the concatenation of spline segments:
    omgtools/basics/spline_extra.py concat_splines and its use in
    omgtools/vehicles/vehicle.py store.

    Simplifications: exact reals; la.solve is exact elimination (gsolve of
    Splop_Model, None where la.solve raises); the arrays knots[l], coeffs[l]
    and the spline prev_segment[l] always hold the same data (prev_segment[l]
    is rebuilt from the two arrays at spline_extra.py 394-396, and for the
    first segment it is scaled with shift 0), so one spline stands for all
    three; a raised exception is None. *)
From Coq Require Import Reals List Arith Bool ZArith.
From Verif Require Import Spline_Model Splop_Model.
Import ListNotations.
Local Open Scope R_scope.

(** Python's l[:e] with e possibly negative; used by head_knots, spline_extra.py 355-357 and 360-363 *)
Definition py_prefix (e : Z) (l : list R) : list R :=
  if (e <? 0)%Z then firstn (Z.to_nat (Z.of_nat (length l) + e)) l else firstn (Z.to_nat e) l.

(** spline_extra.py 338: the continuity test; a division by zero gives nan or
    inf, for which the comparison is false *)
Definition same_value (v1 v2 : R) : bool :=
  if Reqb (v1 + v2) 0 then false else Rleb (Rabs (v1 - v2) * (5 / 10) / (v1 + v2)) (1 / 1000).

(** spline_extra.py 325-343: count down from degree+1 while values agree; [ds]
    are the orders that are still to be compared *)
Fixpoint count_insert (ds : list nat) (n : Z) (next prev : bspline) (t : R) : Z :=
  match ds with
  | [] => n
  | d :: ds' =>
    if same_value (call (derivative next d) t) (call (derivative prev d) t)
    then count_insert ds' (n - 1) next prev t else n
  end.
(* with the above, spline_extra.py 325-343 *)
Definition computed_insert (prev s : bspline) (T t : R) : Z :=
  let p := degree (sbasis prev) in
  count_insert (seq 0 (p + 1)) (Z.of_nat p + 1) (scale s T t) prev t.

(** spline_extra.py 355-357 and 360-363: the knots of the first part up to
    n_insert copies of its end, then the shifted knots of the second part *)
Definition head_knots (p : nat) (n : Z) (ks : list R) : list R :=
  py_prefix (Z.of_nat (length ks) - (Z.of_nat p + 1) + n) ks.
(* with the above, spline_extra.py 355-357 and 360-363 *)
Definition tail_knots (p : nat) (ks : list R) (T sft : R) : list R :=
  map (fun k => k * T + sft) (skipn (p + 1) ks).

(** spline_extra.py 370-371: the first and the last Greville point moved inwards *)
Definition move_first (g : list R) : list R :=
  match g with a :: b :: r => (a + (b - a) * (1 / 100)) :: b :: r | _ => g end.
(* with the above, spline_extra.py 370-371 *)
Definition move_last (g : list R) : list R :=
  match rev g with z :: y :: r => rev ((z - (z - y) * (1 / 100)) :: y :: r) | _ => g end.
(* with the above, spline_extra.py 370-371 *)
Definition sites (b : bbasis) : list R := move_last (move_first (greville b)).

(** spline_extra.py 366: basis of the two parts *)
Definition concat_basis (p : nat) (n : Z) (prev s : bspline) (T : R) : bbasis :=
  let k1 := head_knots p n (knots (sbasis prev)) in
  mkB (k1 ++ tail_knots p (knots (sbasis s)) T (last k1 0)) p.
(** spline_extra.py 383-389: the linear system for the new coefficients *)
Definition concat_system (bc : bbasis) (prev next : bspline) : list (list R * R) :=
  map (fun x => (eval_basis bc x, call prev x + call next x)) (sites bc).

(** spline_extra.py 346-399: append the segment s (duration T, starting at t) to prev *)
Definition join (n : Z) (prev s : bspline) (T t : R) : option bspline :=
  let p := degree (sbasis prev) in
  let ks := knots (sbasis prev) in
  if (n =? Z.of_nat p + 1)%Z
  then Some (mkS (mkB (ks ++ tail_knots p (knots (sbasis s)) T (last ks 0)) p)
                 (coeffs prev ++ coeffs s))
  else
    let bc := concat_basis p n prev s T in
    match gsolve (blen bc) (concat_system bc prev (scale s T t)) with
    | None => None
    | Some c => Some (mkS (mkB (head_knots p n ks ++ tail_knots p (knots (sbasis s)) T (last ks 0)) p) c)
    end.

(** spline_extra.py 320-399: the inner loop over the signals of one segment.
    n_insert is computed once and then kept.  A segment with more signals
    than the first one raises (index error), one with fewer leaves the
    others as they are. *)
Fixpoint join_all (n : option Z) (prevs segs : list bspline) (T t : R)
  : option (option Z * list bspline) :=
  match segs, prevs with
  | [], _ => Some (n, prevs)
  | _ :: _, [] => None
  | s :: segs', prev :: prevs' =>
    if (degree (sbasis s) =? degree (sbasis prev))%nat then
      let m := match n with Some m => m | None => computed_insert prev s T t end in
      match join m prev s T t with
      | None => None
      | Some r =>
        match join_all (Some m) prevs' segs' T t with
        | None => None
        | Some (n', rs) => Some (n', r :: rs)
        end
      end
    else None
  end.

(** spline_extra.py 319, 397-400: the outer loop *)
Fixpoint concat_loop (n : option Z) (prevs : list bspline) (t : R)
         (rest : list (list bspline)) (Ts : list R) : option (list bspline) :=
  match rest, Ts with
  | [], _ => Some prevs
  | _ :: _, [] => None
  | seg :: rest', T :: Ts' =>
    match join_all n prevs seg T t with
    | None => None
    | Some (n', prevs') => concat_loop n' prevs' (t + T) rest' Ts'
    end
  end.

(** spline_extra.py 308-404: concat_splines *)
Definition concat_splines (segments : list (list bspline)) (Ts : list R) (n : option Z)
  : option (list bspline) :=
  match segments, Ts with
  | seg :: rest, T :: Ts' => concat_loop n (map (fun s => scale s T 0) seg) T rest Ts'
  | _, _ => None
  end.

(** vehicle.py 250-263: the number of knots that store asks for; [deg] is the
    degree of the vehicle *)
Definition store_insert (continuity : option nat) (deg : nat) : option Z :=
  match continuity with
  | Some c => Some (Z.of_nat c - (Z.of_nat deg - 1))%Z
  | None => None
  end.
(* with the above, vehicle.py 250-263 *)
Definition store_splines (segments : list (list bspline)) (Ts : list R)
           (continuity : option nat) (deg : nat) : option (list bspline) :=
  concat_splines segments Ts (store_insert continuity deg).
