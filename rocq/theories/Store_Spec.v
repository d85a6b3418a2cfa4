(** Vocabulary for the properties of the store of variables and of the warm
    start.  Nothing here refers to the dictionaries' operations of the model. *)
From Coq Require Import String Ascii Reals List Arith.
From Verif Require Import Spline_Model Splop_Model Splop_Spec Shift_Spec Store_Model.
From Verif Require Opti_Model.
Import ListNotations.
Local Open Scope R_scope.
Local Notation length := List.length.

(** the name is (re)defined or given a value by the call *)
Definition touches (n : string) (o : op) : Prop :=
  match o with
  | Plain _ m _ _ _ => m = n
  | Group _ m _ s1 _ _ =>
      ((s1 <= 1)%nat /\ m = n) \/ ((1 < s1)%nat /\ exists l, (l < s1)%nat /\ n = (m ++ Opti_Model.py_str l)%string)
  | SetValue m _ => m = n
  | Reset => True
  end.
Definition untouched (n : string) (ops : list op) : Prop := forall o, In o ops -> ~ touches n o.

(** the children of a father: different labels, each made by a history of calls *)
Definition made (c : child) : Prop := exists ops, c = run_ops ops (new_child (label c)).
Definition family (cs : list child) : Prop := NoDup (map label cs) /\ forall c, In c cs -> made c.

(** n is a variable of shape sh; a spline variable over b *)
Definition is_var (c : child) (n : string) (sh : shape) : Prop := In (n, sh) (vars c).
Definition is_spline (c : child) (n : string) (b : bbasis) : Prop := In (n, b) (prim c).

(** an array with that many rows and columns *)
Definition has_shape (sh : shape) (a : arr) : Prop :=
  length a = snd sh /\ forall col, In col a -> length col = fst sh.
(** the array that an assigned value stands for *)
Definition stands_for (sh : shape) (v : value) (a : arr) : Prop :=
  match v with
  | VNum r => has_shape sh a /\ forall col z, In col a -> In z col -> z = r
  | VArr a' => has_shape sh a' /\ a = a'
  end.

(** the store holds exactly one array of the right shape per variable, in order *)
Definition holds (cs : list child) (s : store) : Prop :=
  Forall2 (fun ks ka => fst ks = fst ka /\ has_shape (snd ks) (snd ka))
    (flat_map (fun c => map (fun ns => ((label c, fst ns), snd ns)) (vars c)) cs) s.
(** the array of a variable *)
Definition reads (s : store) (c : child) (n : string) (a : arr) : Prop := In ((label c, n), a) s.

(** how many numbers the entries take *)
Fixpoint numbers (l : list (key * shape)) : nat :=
  match l with [] => 0 | (_, (r, q)) :: l' => r * q + numbers l' end.
Definition entry_number (a : arr) (i j : nat) : R := nth i (nth j a []) 0.

(** the first "seg" of the name is followed by the character d *)
Definition first_seg (n : string) (d : ascii) : Prop :=
  exists p r, n = (p ++ "seg" ++ String d r)%string /\
    forall p' r', n = (p' ++ "seg" ++ r')%string -> (String.length p <= String.length p')%nat.
Definition has_seg (n : string) : Prop := exists p r, n = (p ++ "seg" ++ r)%string.
Definition digit_of (d : ascii) (k : nat) : Prop := (k <= 9)%nat /\ nat_of_ascii d = (48 + k)%nat.
(** the name belongs, going by that character, to one of the segments *)
Definition selected (segs : list nat) (n : string) : Prop :=
  exists d k, first_seg n d /\ digit_of d k /\ In k segs.
(** no character can be read as a number there *)
Definition unreadable (n : string) : Prop :=
  has_seg n /\ forall d, first_seg n d -> forall k, ~ digit_of d k.
(** what the argument seg_shift asks for: nothing given means segment 0 *)
Definition hits (a : option (nat + list nat)) (n : string) : Prop :=
  exists d k, first_seg n d /\ digit_of d k /\
    match a with None => k = 0%nat | Some (inl m) => k = m | Some (inr l) => In k l end.
(** every other variable is as before *)
Definition same_vars (cs : list child) (s s' : store) (but : child -> string -> Prop) : Prop :=
  forall c n, In c cs -> ~ but c n -> forall x, reads s' c n x <-> reads s c n x.
(** the old splines over the rest of the motion, from the fraction t on *)
Definition rest_of (cs : list child) (a : option (nat + list nat)) (tol t : R) (s s' : store) : Prop :=
  forall c n d K h sh x, 0 <= tol -> In c cs -> is_spline c n (equidistant d K h) -> is_var c n sh -> fst sh = (K + d)%nat -> hits a n ->
     0 < h -> INR K * h = 1 -> (2 <= K)%nat -> (1 <= d)%nat -> 0 <= t < 1 -> reads s c n x ->
     exists x', reads s' c n x' /\ has_shape sh x' /\ forall j, (j < length x)%nat ->
       let b := equidistant d K h in
       let old := mkS b (nth j x []) in let new := mkS b (nth j x' []) in
       Rabs (call new 0 - call old t) <= tol * size_of (coeffs old) /\
       Rabs (call new 1 - call old 1) <= tol * size_of (coeffs old) /\
       forall i, (i < K + d)%nat -> exists g, (g < no_points)%nat /\
         (forall g', (g' < no_points)%nat -> let at_ := fun g => INR g / INR (no_points - 1) in
            nth i (eval_basis b (at_ g')) 0 <= nth i (eval_basis b (at_ g)) 0) /\
         Rabs (call new (INR g / INR (no_points - 1)) - call old (t + INR g / INR (no_points - 1) * (1 - t))) <= tol * size_of (coeffs old).
(** the k-th motion time *)
Definition time_of (s : store) (p : child) (k : nat) (T : R) : Prop :=
  (forall b, ~ is_spline p ("T" ++ Opti_Model.py_str k) b) /\ exists col cols, reads s p ("T" ++ Opti_Model.py_str k)%string ((T :: col) :: cols).
