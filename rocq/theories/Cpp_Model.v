(** Model of the hand-written C++ part of the exported code:
    export/vehicles/Vehicle.cpp, Holonomic.cpp, the time keeping of
    export/point2point/Point2Point.cpp and admm/ADMMPoint2Point.cpp.

    Simplifications for the whole file: doubles are exact reals; subscripts
    outside a vector are the result None (write, nth_error); the solver is
    represented by its verdict (succeeded or not); (int) of a non-negative
    double is its integer part. *)
From Coq Require Import Reals List Arith Bool ZArith.
From Verif Require Import Spline_Model Export_Model.
Import ListNotations.
Local Open Scope R_scope.

(** Vehicle.cpp 32-42: the knot vector built by the constructor *)
Definition cpp_knots (deg ki : nat) : option vec :=
  match for_loop deg 0 (fun d v =>
          match write v d 0 with
          | Some v' => write v' (d + ki + deg + 1) 1
          | None => None end) (repeat 0 (ki + 1 + 2 * deg)) with
  | Some v => for_loop (ki + 1) 0 (fun j v => write v (deg + j) (INR j / INR ki)) v
  | None => None
  end.

(** vehicle.py 81-84: the knots of the Python vehicle *)
Definition py_knots (deg ki : nat) : vec :=
  repeat 0 deg ++ map (fun j => INR j * (1 / INR ki)) (seq 0 (ki + 1)) ++ repeat 1 deg.

(** x += f(k) for k = 0, ..., n-1; used by sample_spline, Vehicle.cpp 112-125 *)
Fixpoint acc_sum (n : nat) (f : nat -> R) : R :=
  match n with
  | O => 0
  | S n' => acc_sum n' f + f n'
  end.

(* used by sample_spline, Vehicle.cpp 112-125 *)
Definition at2 (M : list vec) (i j : nat) : R := nth j (nth i M []) 0.

(** Vehicle.cpp 131-157: createDerivativeMatrices, the matrix for one more
    derivative; knots are this->knots without i+1 entries at both ends *)
Definition der_factor (ks : vec) (deg len i : nat) : list vec :=
  map (fun j => map (fun k =>
      let delta := nth (deg - i + j) ks 0 - nth j ks 0 in
      if (k =? j)%nat then - 1 / delta else if (k =? j + 1)%nat then 1 / delta else 0)
    (seq 0 (len - i))) (seq 0 (len - 1 - i)).

(* used by sample_spline, Vehicle.cpp 112-125 *)
Fixpoint derivative_T (ks : vec) (deg len i : nat) : list vec :=
  match i with
  | O => map (fun j => map (fun k => if (k =? j)%nat then 1 else 0) (seq 0 len)) (seq 0 len)
  | S i' =>
    let T := der_factor (slice_oo (i' + 1) ks) deg len i' in
    map (fun l => map (fun m =>
        acc_sum (len - i') (fun k => INR (deg - i') * at2 T l k * at2 (derivative_T ks deg len i') k m))
      (seq 0 len)) (seq 0 (len - 1 - i'))
  end.

(** Vehicle.cpp 159-190: evalSpline; row d of the table basis *)
Fixpoint cpp_table (ks : vec) (deg : nat) (x : R) (d i : nat) : R :=
  match d with
  | O =>
    if ((i <? deg + 1)%nat && Reqb (nth 0 ks 0) (nth i ks 0))%bool
    then b2R (Rleb (nth i ks 0) x && Rleb x (nth (i + 1) ks 0))
    else b2R (Rltb (nth i ks 0) x && Rleb x (nth (i + 1) ks 0))
  | S d' =>
    let bottom1 := nth (i + S d') ks 0 - nth i ks 0 in
    let b1 := if Reqb bottom1 0 then 0 else (x - nth i ks 0) * cpp_table ks deg x d' i / bottom1 in
    let bottom2 := nth (i + S d' + 1) ks 0 - nth (i + 1) ks 0 in
    if Reqb bottom2 0 then b1
    else b1 + (nth (i + S d' + 1) ks 0 - x) * cpp_table ks deg x d' (i + 1) / bottom2
  end.

(* used by sample_spline, Vehicle.cpp 112-125 *)
Definition evalSpline (x : R) (ks c : vec) (deg : nat) : R :=
  acc_sum (length ks - deg - 1) (fun l => nth l c 0 * cpp_table ks deg x deg l).

(** Vehicle.cpp 112-125: sampleSplines for one spline and one time *)
Definition sample_spline (ks : vec) (deg : nat) (T : R) (c : vec) (d : nat) (time : R) : R :=
  let len := (length ks - deg - 1)%nat in
  let cd := map (fun l => acc_sum len (fun m => 1 / T ^ d * at2 (derivative_T ks deg len d) l m * nth m c 0))
                (seq 0 (len - d)) in
  evalSpline (time / T) (slice_oo d ks) cd (deg - d).

(** Vehicle.cpp 82-110: integrate for a state of any dimension; ode gives the
    derivative of the state *)
Definition axpy (a : R) (k s : vec) : vec := map (fun p => snd p + a * fst p) (combine k s).

(* with the above, Vehicle.cpp 82-110 *)
Definition rk_step (ode : vec -> vec -> vec) (dt : R) (s0 u u' : vec) : vec :=
  let k1 := ode s0 u in
  let k2 := ode (axpy (5 / 10 * dt) k1 s0) u in
  let k3 := ode (axpy (5 / 10 * dt) k2 s0) u in
  let k4 := ode (axpy dt k3 s0) u' in
  map (fun p => dt / 6 * (fst (fst (fst p)) + 2 * snd (fst (fst p)) + 2 * snd (fst p) + snd p))
      (combine (combine (combine k1 k2) k3) k4).

(* with the above, Vehicle.cpp 82-110 *)
Fixpoint integrate_from (ode : vec -> vec -> vec) (dt : R) (s0 : vec) (input : list vec) (steps i : nat) (sT : vec) : option vec :=
  match steps with
  | O => Some sT
  | S n =>
    match nth_error input i, nth_error input (S i) with
    | Some u, Some u' => integrate_from ode dt s0 input n (S i) (axpy 1 (rk_step ode dt s0 u u') sT)
    | _, _ => None
    end
  end.

(* with the above, Vehicle.cpp 82-110 *)
Definition integrate (ode : vec -> vec -> vec) (s0 : vec) (input : list vec) (dt : R) (steps : nat) : option vec :=
  integrate_from ode dt s0 input steps 0 s0.

(** Holonomic.cpp 79-82 *)
Definition holonomic_ode (state input : vec) : vec := input.

(** Vehicle.cpp 61-80: predict; steps = int(predict_time/sample_time) *)
Inductive mode := Ideal | Provided | Integrate.

(* with the above, Vehicle.cpp 61-80 *)
Definition predict (ode : vec -> vec -> vec) (md : mode) (s0 : vec) (st inp : list vec) (dt : R) (steps shift : nat) :
  option (vec * vec) :=
  match md with
  | Ideal => match nth_error st (steps + shift), nth_error inp (steps + shift) with
             | Some s, Some u => Some (s, u)
             | _, _ => None end
  | Provided => match nth_error inp (steps + shift) with
                | Some u => Some (s0, u)
                | None => None end
  | Integrate =>
    if (steps + shift <? length inp)%nat
    then let input := map (fun k => nth (k + shift) inp []) (seq 0 (steps + 1)) in
         match integrate ode s0 input dt steps, nth_error input steps with
         | Some s, Some u => Some (s, u)
         | _, _ => None
         end
    else None
  end.

(** Point2Point.cpp 37-46: number of stored samples *)
Definition stored_samples (trajectory_length steps : nat) : nat :=
  if (steps <? trajectory_length)%nat then (trajectory_length + 1)%nat else (steps + 1)%nat.

(** Holonomic.cpp 39-60: getInitSplineValue for one spline *)
Definition init_spline (len : nat) (s0 sT : R) : vec :=
  map (fun j => s0 + INR j * (sT - s0) / INR (len - 1)) (seq 0 len).

(** ---- time keeping ---- *)

(** round() on a non-negative number; used by interval, export.py 409-410 *)
Definition cround (x : R) : R := IZR (Int_part (x + 1 / 2)).

(** export.py 409-410: interval_now and interval_prev *)
Definition interval (ki : nat) (T t : R) : Z := Int_part (cround (t * INR ki / T * 1000000) / 1000000).

(* used by p2p_update, Point2Point.cpp 124-205 *)
Record clock := mkK { k_cur : R; k_prev : R; k_shifts : nat; k_iter : nat }.

(** transformSplines: the splines are multiplied once by their matrices when a
    knot has been passed; used by p2p_update, Point2Point.cpp 124-205 *)
Definition shift_count (ki : nat) (T : R) (cur prev : R) (n : nat) : nat :=
  if (interval ki T prev <? interval ki T cur)%Z then S n else n.

(** Point2Point.cpp 124-205: update; ok is the verdict of the solver *)
Definition p2p_update (ki : nat) (T u dt : R) (shift : nat) (ok : bool) (k : clock) : clock :=
  let cur := k_cur k + INR shift * dt in
  let n := shift_count ki T cur (k_prev k) (k_shifts k) in
  if ok then mkK (cur + u) cur n (k_iter k) else mkK cur cur n (k_iter k).

(** Point2Point.cpp 268 and 300: the local time passed to the problem *)
Definition fmod (x y : R) : R := x - y * IZR (Int_part (x / y)).
(* with the above, Point2Point.cpp 268 and 300 *)
Definition local_time (ki : nat) (T t : R) : R := fmod (cround (t * 1000) / 1000) (T / INR ki).

(** ADMMPoint2Point.cpp 114-211: update1; init = init_iter *)
Definition admm_update1 (ki : nat) (T u dt : R) (init shift : nat) (ok : bool) (k : clock) : clock :=
  let cur := k_cur k + INR shift * dt in
  let n := shift_count ki T cur (k_prev k) (k_shifts k) in
  if ok
  then if (init <=? k_iter k)%nat then mkK (cur + u) cur n (S (k_iter k)) else mkK cur (k_prev k) n (S (k_iter k))
  else mkK cur cur n (k_iter k).

(** the time for which update1 solves and the time update2 hands to the z
    update and the residuals (ADMMPoint2Point.cpp 296-306, 319-329) *)
Definition x_time (dt : R) (shift : nat) (k : clock) : R := k_cur k + INR shift * dt.
(* with the above, ADMMPoint2Point.cpp 296-306, 319-329 *)
Definition z_time (k : clock) : R := k_cur k.

(** ADMMPoint2Point.cpp 93-97: stepBack *)
Definition step_back (k : clock) : clock := mkK (k_prev k) (k_prev k) (k_shifts k) (k_iter k - 1).
