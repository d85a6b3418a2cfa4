(** What the exported C++ functions are supposed to do. *)
From Coq Require Import Reals List Arith Bool String.
From Verif Require Import Export_Model.
Import ListNotations.
Local Open Scope R_scope.

Definition total (ds : list decl) : nat := fold_right (fun d n => (d_size d + n)%nat) 0%nat ds.

(** shapes the generators handle: a column or a matrix with at least two
    rows, or a single number *)
Definition plain (d : decl) : Prop := (1 < d_rows d)%nat \/ (d_rows d = 1 /\ d_cols d = 1)%nat.

Definition entry (m : dict) (d : decl) : option vec := m (d_label d) (d_name d).

(** the dictionary has an entry of at least the declared size *)
Definition present (m : dict) (d : decl) : Prop :=
  exists x, entry m d = Some x /\ (d_size d <= List.length x)%nat.

(** the declared values one after the other *)
Definition value (m : dict) (d : decl) : vec :=
  match entry m d with Some x => firstn (d_size d) x | None => [] end.

(** values of the dictionary where there are some, old values elsewhere *)
Fixpoint merged (m : dict) (ds : list decl) (v : vec) : vec :=
  match ds with
  | [] => []
  | d :: ds' =>
    match entry m d with Some x => firstn (d_size d) x | None => firstn (d_size d) v end
    ++ merged m ds' (skipn (d_size d) v)
  end.

Definition key (d : decl) : string * string := (d_label d, d_name d).

(** ---- splines ---- *)
Fixpoint dotp (u v : vec) : R :=
  match u, v with
  | a :: u', x :: v' => a * x + dotp u' v'
  | _, _ => 0
  end.

Definition mat_vec (M : list vec) (c : vec) : vec := map (fun row => dotp row c) M.

Definition square (n : nat) (M : list vec) : Prop :=
  List.length M = n /\ Forall (fun r => List.length r = n) M.

Fixpoint split_cols (rows cols : nat) (v : vec) : list vec :=
  match cols with
  | O => []
  | S c => firstn rows v :: split_cols rows c (skipn rows v)
  end.

(** every column of every spline multiplied by its matrix *)
Fixpoint shifted (ds : list decl) (v : vec) : vec :=
  match ds with
  | [] => []
  | d :: ds' =>
    match d_spline d, d_init d with
    | Some _, Some M => List.concat (map (mat_vec M) (split_cols (d_rows d) (d_cols d) (firstn (d_size d) v)))
    | _, _ => firstn (d_size d) v
    end ++ shifted ds' (skipn (d_size d) v)
  end.

Definition is_spline (d : decl) : Prop := d_spline d <> None.

(** a spline variable has one row per basis function and a square matrix *)
Definition good_spline (d : decl) : Prop :=
  forall n, d_spline d = Some n -> n = d_rows d /\ exists M, d_init d = Some M /\ square n M.

(** splines with one name up to case have one matrix *)
Definition one_matrix (ds : list decl) : Prop :=
  forall d e, In d ds -> In e ds -> is_spline d -> is_spline e ->
    upper (d_name d) = upper (d_name e) -> d_init d = d_init e.

(** only single columns are declared before a spline *)
Definition columns_before (ds : list decl) : Prop :=
  forall pre d post, ds = pre ++ d :: post -> is_spline d -> Forall (fun e => d_cols e = 1%nat) pre.

(** ---- bounds ---- *)
Definition shut (t : R) (c : cstr) : bool := match c_shut c with Some f => f t | None => false end.

Definition free_pair (n : nat) : bounds := (repeat NegInf n, repeat PosInf n).

(** bounds of one constraint: an obstacle decides about its own constraints,
    a shutdown condition about the others *)
Definition wanted (t : R) (avoid : list bool) (c : cstr) : bounds :=
  match c_obst c with
  | Some k => if nth k avoid true then (c_lb c, c_ub c) else free_pair (c_size c)
  | None => if shut t c then free_pair (c_size c) else (c_lb c, c_ub c)
  end.

Definition wanted_all (t : R) (avoid : list bool) (cs : list cstr) : bounds :=
  (List.concat (map (fun c => fst (wanted t avoid c)) cs),
   List.concat (map (fun c => snd (wanted t avoid c)) cs)).

Definition well_sized (n_obs : nat) (c : cstr) : Prop :=
  List.length (c_ub c) = List.length (c_lb c) /\ forall k, c_obst c = Some k -> (k < n_obs)%nat.

(** a run of updates, one (time, avoid flags) per update *)
Fixpoint updates (n_obs : nat) (cs : list cstr) (h : list (R * list bool)) (b : bounds) : option bounds :=
  match h with
  | [] => Some b
  | (t, av) :: h' => match updateBounds n_obs cs t av b with
                     | Some b' => updates n_obs cs h' b'
                     | None => None
                     end
  end.

(** ---- shared variables ---- *)
Definition shared_value (m : dict) (q : shared) : vec :=
  map (fun i => nth i match m (s_label q) (s_name q) with Some x => x | None => [] end 0) (s_ind q).

Definition shared_ok (m : dict) (q : shared) : Prop :=
  exists x, m (s_label q) (s_name q) = Some x /\ Forall (fun i => i < List.length x)%nat (s_ind q).

(** no spline, or exactly one whole column of a spline *)
Definition one_column (q : shared) : Prop :=
  forall n, s_basis q = Some n ->
    square n (s_tf q) /\ exists l, (l < n)%nat /\ s_ind q = seq (l * n) n.

Fixpoint shared_shifted (qs : list shared) (v : vec) : vec :=
  match qs with
  | [] => []
  | q :: qs' =>
    let n := List.length (s_ind q) in
    match s_basis q with
    | Some _ => mat_vec (s_tf q) (firstn n v)
    | None => firstn n v
    end ++ shared_shifted qs' (skipn n v)
  end.

Definition shared_total (qs : list shared) : nat :=
  fold_right (fun q n => (List.length (s_ind q) + n)%nat) 0%nat qs.
