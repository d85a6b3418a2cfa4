(** Initial guesses for the spline coefficients: how every vehicle computes
    them, how they reach the variables of the problem, and when they are used.
    Sources: omgtools/vehicles/vehicle.py, holonomic.py, holonomic1d.py,
    holonomic3d.py, holonomicorient.py, agv.py, bicycle.py, dubins.py,
    quadrotor.py, quadrotor3d.py, quadrotor3d_simple.py, trailer.py, tool.py,
    omgtools/problems/problem.py, point2point.py, multiframeproblem.py,
    omgtools/basics/optilayer.py.

    Simplifications.  Numbers are exact reals, and tan is the exact tangent.
    State and goal are vectors that are long enough for the vehicle's class, so
    they are functions of the index.  The subgoals list that Holonomic changes
    in place is not returned (multiframeproblem.py 145-152 drops it).  The
    variables of the problem are a function of the vehicle's number and the
    segment; that CasADi rejects a guess with a wrong number of rows is not
    modelled.  Only the class of an exception is kept. *)
From Coq Require Import String Reals List Bool Arith.
From Verif Require Import Spline_Model.
From Verif Require Angle_Model Geom_Model.
Import ListNotations.
Local Open Scope R_scope.
Local Notation length := List.length.

(** a value or the class of the exception that is raised; used by
    get_init_spline_value, holonomic.py 118-143 *)
Inductive res (A : Type) := Ok (a : A) | Raise (e : string).
(* with the above, holonomic.py 118-143 *)
Arguments Ok {A}.
(* with the above, holonomic.py 118-143 *)
Arguments Raise {A}.

(* ---------- arrays ---------- *)

(** a numpy array of one dimension, and one with n rows and the given columns;
    used by get_init_spline_value, holonomic1d.py 77-83, holonomic.py 118-143 *)
Inductive arr := A1 (v : list R) | A2 (n : nat) (columns : list (list R)).
(** the values returned by get_init_spline_value: a list of arrays
    (holonomic.py 118-143), or one array of shape (1, n, m) (trailer.py 117-128) *)
Inductive guesses := GList (l : list arr) | GArr (n : nat) (columns : list (list R)).
(** g[k]; used by reinitialize, point2point.py 79-87 *)
Definition item (g : guesses) (k : nat) : option arr :=
  match g with
  | GList l => nth_error l k
  | GArr n c => if (k =? 0)%nat then Some (A2 n c) else None
  end.

(* ---------- vehicles ---------- *)

(** the classes of vehicles, without trailers; used by get_init_spline_value,
    holonomic.py 118-143, and in the other files *)
Inductive kind := Holonomic | Holonomic1D | Holonomic3D | HolonomicOrient | AGV | Bicycle | Dubins
  | Quadrotor | Quadrotor3D | SimpleQuadrotor3D | Tool.
(** n_spl: holonomic.py 31-32, holonomic1d.py 31, holonomic3d.py 30-31,
    holonomicorient.py 31-32, agv.py 55-56, bicycle.py 57-58, dubins.py 55-56,
    quadrotor.py 31-32, quadrotor3d.py 51-52, quadrotor3d_simple.py 48-49,
    tool.py 41-42 *)
Definition n_spl (c : kind) : nat :=
  match c with
  | Holonomic1D => 1
  | Holonomic | AGV | Bicycle | Dubins | Quadrotor => 2
  | Holonomic3D | HolonomicOrient | Quadrotor3D | SimpleQuadrotor3D | Tool => 3
  end.
(** basis, n_seg (absent before define_splines, vehicle.py 105-106),
    prediction['state'] and the goal of set_terminal_conditions.  A trailer has
    in addition the heading of the trailer, the goal heading if one was set
    (trailer.py 114-115) and the vehicle that pulls it *)
Inductive vehicle :=
  | Single (c : kind) (b : bbasis) (n_seg : option nat) (state goal : nat -> R)
  | Trailer (b : bbasis) (n_seg : option nat) (theta : R) (thetaT : option R) (lead : vehicle).
(* with the above, vehicle.py 105-106 *)
Definition v_basis (v : vehicle) : bbasis := match v with Single _ b _ _ _ => b | Trailer b _ _ _ _ => b end.
(* with the above, vehicle.py 105-106 *)
Definition v_seg (v : vehicle) : option nat := match v with Single _ _ n _ _ => n | Trailer _ n _ _ _ => n end.
(** trailer.py 32-33 *)
Fixpoint v_spl (v : vehicle) : nat := match v with Single c _ _ _ _ => n_spl c | Trailer _ _ _ _ l => S (v_spl l) end.

(** len(basis): spline.py 125-126 *)
Definition rows (b : bbasis) : nat := (length (knots b) - degree b - 1)%nat.
(** np.linspace(a, b, len(basis)); used by get_init_spline_value, holonomic.py 118-143 *)
Definition ramp (b : bbasis) (x y : R) : list R := Angle_Model.linspace x y (rows b).
(** np.zeros(len(basis)); used by get_init_spline_value, dubins.py 209-218 *)
Definition flat (b : bbasis) (x : R) : list R := repeat x (rows b).
(** quadrotor.py 98-100: equal coefficients at both ends *)
Definition held (b : bbasis) (x y : R) : list R :=
  repeat x (degree b) ++ Angle_Model.linspace x y (rows b - 2 * degree b) ++ repeat y (degree b).
(** np.tan(x/2.); used by get_init_spline_value, dubins.py 209-218 *)
Definition half_tan (x : R) : R := tan (x / 2).

(** the first d columns of a guess along a line; used by
    get_init_spline_value, holonomic.py 122-126, 137-141 *)
Definition lines (b : bbasis) (d : nat) (p q : nat -> R) : list (list R) :=
  map (fun k => ramp b (p k) (q k)) (seq 0 d).
(** holonomic.py 133-142: one array per pair of consecutive points *)
Fixpoint legs (b : bbasis) (p : nat -> R) (ps : list (nat -> R)) : list arr :=
  match ps with
  | [] => []
  | q :: r => A2 (rows b) (lines b 2 p q) :: legs b q r
  end.
(** a point of the plane as a vector; used by get_init_spline_value, holonomic.py 118-143 *)
Definition vec (p : R * R) (k : nat) : R := if (k =? 0)%nat then fst p else snd p.

(** get_init_spline_value; [sub] is the keyword argument subgoals, None where
    it is not given.  holonomic.py 118-143, holonomic1d.py 77-83,
    holonomic3d.py 104-114, holonomicorient.py 122-136, agv.py 181-190,
    bicycle.py 214-223, dubins.py 209-218, quadrotor.py 94-102,
    quadrotor3d.py 187-198, quadrotor3d_simple.py 128-137; tool.py has no such
    method *)
Definition single_value (c : kind) (b : bbasis) (n : option nat) (s g : nat -> R) (sub : option (list (R * R)))
    : res guesses :=
  match c, sub with
  | Holonomic, _ =>
    match n with
    | None => Raise "AttributeError"
    | Some 1%nat => Ok (GList [A2 (rows b) (lines b 2 s g)])
    | Some _ => match sub with
                | None => Raise "AttributeError"
                | Some l => Ok (GList (legs b s (map vec l ++ [g])))
                end
    end
  | Tool, _ => Raise "AttributeError"
  | _, Some _ => Raise "TypeError"
  | Holonomic1D, None => Ok (GList [A1 (ramp b (s 0%nat) (g 0%nat))])
  | Holonomic3D, None | SimpleQuadrotor3D, None => Ok (GList [A2 (rows b) (lines b 3 s g)])
  | HolonomicOrient, None => Ok (GList [A2 (rows b) (lines b 2 s g ++ [flat b 0])])
  | AGV, None | Bicycle, None | Dubins, None =>
    Ok (GList [A2 (rows b) [flat b 0; ramp b (half_tan (s 2%nat)) (half_tan (g 2%nat))]])
  | Quadrotor, None =>
    if (rows b <? 2 * degree b)%nat then Raise "ValueError"
    else Ok (GList [A2 (rows b) (map (fun k => held b (s k) (g k)) (seq 0 2))])
  | Quadrotor3D, None =>
    Ok (GList [A2 (rows b) [flat b 0; ramp b (half_tan (s 6%nat)) (half_tan (g 3%nat));
                            ramp b (half_tan (s 7%nat)) (half_tan (g 4%nat))]])
  end.
(** np.c_[[a], lead]: arrays of shape (1, n, 1) and (k, n', m) side by side;
    used by get_init_spline_value, trailer.py 117-128 *)
Definition beside (n : nat) (col : list R) (lead : guesses) : res guesses :=
  match lead with
  | GArr n' cs | GList [A2 n' cs] => if (n' =? n)%nat then Ok (GArr n (col :: cs)) else Raise "ValueError"
  | _ => Raise "ValueError"
  end.
(** with the above, and trailer.py 117-128 *)
Fixpoint init_value (v : vehicle) (sub : option (list (R * R))) : res guesses :=
  match v with
  | Single c b n s g => single_value c b n s g sub
  | Trailer b _ th thT lead =>
    match sub with
    | Some _ => Raise "TypeError"
    | None =>
      let t0 := half_tan th in
      let tT := match thT with Some x => half_tan x | None => t0 end in
      match init_value lead None with
      | Raise e => Raise e
      | Ok g => beside (rows b) (ramp b t0 tT) g
      end
    end
  end.

(* ---------- the variables of the problem ---------- *)

(** the values of the variables splines_seg<k> per vehicle: optilayer.py 332-338 *)
Definition vars := nat -> nat -> arr.
(* with the above, optilayer.py 332-338 *)
Definition set_var (i k : nat) (a : arr) (m : vars) : vars :=
  fun i' k' => if ((i' =? i) && (k' =? k))%nat%bool then a else m i' k'.
(** point2point.py 86-87, multiframeproblem.py 153-154: n segments from number k on *)
Fixpoint set_segments (i : nat) (g : guesses) (k n : nat) (m : vars) : res vars :=
  match n with
  | O => Ok m
  | S n' => match item g k with
            | None => Raise "IndexError"
            | Some a => set_segments i g (S k) n' (set_var i k a m)
            end
  end.
(** point2point.py 79-87, for the vehicles from number i on *)
Fixpoint reinitialize (i : nat) (vs : list vehicle) (m : vars) : res vars :=
  match vs with
  | [] => Ok m
  | v :: r =>
    match init_value v None with
    | Raise e => Raise e
    | Ok g => match v_seg v with
              | None => Raise "AttributeError"
              | Some n => match set_segments i g 0 n m with
                          | Raise e => Raise e
                          | Ok m' => reinitialize (S i) r m'
                          end
              end
    end
  end.
(** multiframeproblem.py 145-151: the centres of the overlaps of the rooms *)
Fixpoint centres (n : nat) (rooms : list (Geom_Model.rect * (R * R))) : res (list (R * R)) :=
  match n with
  | O => Ok []
  | S n' =>
    match rooms with
    | (s1, p1) :: (((s2, p2) :: _) as r) =>
      match Geom_Model.overlap_center s1 p1 s2 p2 with
      | None => Raise "RuntimeError"
      | Some c => match centres n' r with Raise e => Raise e | Ok l => Ok (c :: l) end
      end
    | _ => Raise "IndexError"
    end
  end.
(** multiframeproblem.py 139-154 with n_frames = n *)
Fixpoint reinitialize_frames (n i : nat) (rooms : list (Geom_Model.rect * (R * R))) (vs : list vehicle) (m : vars)
    : res vars :=
  match vs with
  | [] => Ok m
  | v :: r =>
    match centres (n - 1) rooms with
    | Raise e => Raise e
    | Ok sub =>
      match init_value v (Some sub) with
      | Raise e => Raise e
      | Ok g => match set_segments i g 0 n m with
                | Raise e => Raise e
                | Ok m' => reinitialize_frames n (S i) rooms r m'
                end
      end
    end
  end.

(* ---------- a new guess during a run ---------- *)

(** an element of the list init_guess: an array, the list of arrays of one
    vehicle, or the array of a trailer; problem.py 165-170 *)
Inductive given := One (a : arr) | Many (l : list arr) | Deep (n : nat) (columns : list (list R)).
(** problem.py 166-169: the list that is built when no guess is given *)
Fixpoint built (vs : list vehicle) : res (list given) :=
  match vs with
  | [] => Ok []
  | v :: r =>
    match init_value v None with
    | Raise e => Raise e
    | Ok g => match built r with
              | Raise e => Raise e
              | Ok l => Ok (match g with GList a => Many a | GArr n c => Deep n c end :: l)
              end
    end
  end.
(** problem.py 177-181: one segment of one vehicle.  A list has no attribute
    shape; the shape of a vector has no second entry; the second entry of the
    shape (1, n, m) is n, and CasADi has no matrix with three dimensions *)
Definition put (i k spl : nat) (x : given) (m : vars) : res vars :=
  match x with
  | Many _ => Raise "AttributeError"
  | One (A1 _) => Raise "IndexError"
  | One (A2 n cs) => if (length cs =? spl)%nat then Ok (set_var i k (A2 n cs) m) else Raise "ValueError"
  | Deep n _ => if (n =? spl)%nat then Raise "NotImplementedError" else Raise "ValueError"
  end.
(* with the above, problem.py 177-181 *)
Fixpoint put_all (i k spl : nat) (xs : list given) (m : vars) : res vars :=
  match xs with
  | [] => Ok m
  | x :: r => match put i k spl x m with Raise e => Raise e | Ok m' => put_all i (S k) spl r m' end
  end.
(** problem.py 173-181 *)
Fixpoint put_vehicles (i : nat) (vs : list vehicle) (xs : list given) (m : vars) : res vars :=
  match vs with
  | [] => Ok m
  | v :: r =>
    match v_seg v with
    | None => Raise "AttributeError"
    | Some n => if (length xs =? n)%nat
                then match put_all i 0 (v_spl v) xs m with
                     | Raise e => Raise e
                     | Ok m' => put_vehicles (S i) r xs m'
                     end
                else Raise "ValueError"
    end
  end.
(** problem.py 165-181: without a guess, and with a list of arrays *)
Definition reset_init_guess (g : option (list arr)) (vs : list vehicle) (m : vars) : res vars :=
  match g with
  | Some l => put_vehicles 0 vs (map One l) m
  | None => match built vs with Raise e => Raise e | Ok l => put_vehicles 0 vs l m end
  end.
(** problem.py 103-137 after the solver returned: m are the variables of its
    answer, [first] tells whether current_time is 0 *)
Definition after_solve (status : string) (first : bool) (vs : list vehicle) (m : vars) : res vars :=
  if (status =? "Maximum_CpuTime_Exceeded")%string
  then if first then Ok m else reset_init_guess None vs m
  else Ok m.

(* ---------- guesses for the definition of the variables ---------- *)

(** the shape of an array is (n, c); vehicle.py 94 *)
Definition has_shape (n c : nat) (a : arr) : bool :=
  match a with A1 _ => false | A2 n' cs => ((n' =? n) && (length cs =? c))%nat%bool end.
(** vehicle.py 89-99: the attribute init_spline_values after the call (entries
    that were not reached are the number 0, here None), and the exception.
    From segment k on, n segments to go, [done_] the segments before *)
Fixpoint accept (b c : nat) (values : list arr) (n : nat) (done_ : list (option arr))
    : list (option arr) * option string :=
  match n with
  | O => (done_, None)
  | S n' =>
    match values with
    | [] => (done_ ++ repeat None n, Some "IndexError"%string)
    | a :: r => if has_shape b c a then accept b c r n' (done_ ++ [Some a])
                else (done_ ++ repeat None n, Some "ValueError"%string)
    end
  end.
(* with the above, vehicle.py 89-99 *)
Definition set_init_spline_values (b : bbasis) (c : nat) (values : list arr) (n : nat)
    : list (option arr) * option string := accept (rows b) c values n [].

(** np.zeros((len(basis), n_spl)), also what the number 0 stands for:
    optilayer.py 610-612 and 321-325 *)
Definition zeros (b : bbasis) (c : nat) : arr := A2 (rows b) (repeat (flat b 0) c).
(** vehicle.py 105-121: the initial values of the variables, per segment; and
    init_spline_values afterwards.  get_init_spline_values (113) does not exist
    in any class, so without set values every segment starts with zeros *)
Definition define_splines (b : bbasis) (c : nat) (stored : option (list (option arr))) (n : nat)
    : res (list arr) * option (list (option arr)) :=
  let init := match stored with Some l => l | None => repeat None n end in
  (if (length init <? n)%nat then Raise "IndexError"
   else Ok (map (fun x => match x with Some a => a | None => zeros b c end) (firstn n init)), None).
