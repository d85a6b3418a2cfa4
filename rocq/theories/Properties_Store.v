(** The store of the variables and the warm start (C152-C160). *)
From Coq Require Import String Ascii.
From Coq Require Import Reals ZArith QArith_base Lra Lia List.
From Verif Require Import Spline_Model Spline_Spec Splop_Model Splop_Spec Shift_Model Shift_Spec Store_Model Store_Spec
  Store_Proofs Store_Proofs2 Store_Proofs3 Store_Proofs4 Store_Proofs5 Store_Examples.
From Verif Require Opti_Model Multi_Model.
Import ListNotations.
Local Open Scope string_scope.
Local Open Scope list_scope.
Local Open Scope R_scope.
Local Notation length := List.length.
Local Notation dget := Opti_Model.dget.
Local Notation zq := inject_Z.
Local Notation in0 := (or_introl eq_refl).
Local Notation in1 := (or_intror (or_introl eq_refl)).

(* a value written to a variable is read back there and nothing else changes *)
Theorem C152_set : forall cs c n v s s', family cs -> holds cs s -> In c cs -> set_one cs c n v s = Ok s' ->
  exists sh a, is_var c n sh /\ stands_for sh v a /\ holds cs s' /\ reads s' c n a /\
  forall c' n' a', (label c', n') <> (label c, n) -> (reads s' c' n' a' <-> reads s c' n' a').
Proof. exact set_one_spec. Qed.
Example C152_set_ex : exists s', set_one cs_T prob "T" (VNum 5) s_T = Ok s' /\ reads s' prob "T" [[5]] /\ reads s' (veh line) "splines_seg0" [line].
Proof.
  destruct (proj2 (set_one_works cs_T prob "T" (VNum 5) s_T fam_T in1)) as [s' E].
  { exists (1, 1)%nat, [[5]]. split; [left; reflexivity|]. split; [split; [reflexivity|]; intros col [<-|[]]; reflexivity|]. intros col z [<-|[]] [<-|[]]. reflexivity. }
  exists s'. split; [exact E|]. destruct (C152_set cs_T prob "T" (VNum 5) s_T s' fam_T holds_T in1 E) as (sh & a & Hv & Ha & _ & R & V). split.
  - destruct Hv as [Hv|[]]. inversion Hv. subst sh. destruct Ha as [[La Sa] Va]. destruct a as [|col [|? ?]]; cbn in La; try lia.
    pose proof (Sa col in0) as Lc. destruct col as [|z [|? ?]]; cbn in Lc; try lia. rewrite <- (Va [z] z in0 in0). exact R.
  - apply V; [intros Q; inversion Q|]. left. reflexivity. Qed.
Print Assumptions C152_set.

(* writing works exactly for a variable of that name and a value that fits it *)
Theorem C152_set_works : forall cs c n v s, family cs -> In c cs ->
  ((exists s', set_one cs c n v s = Ok s') <-> exists sh a, is_var c n sh /\ stands_for sh v a).
Proof. exact set_one_works. Qed.
Example C152_set_works_ex : ~ exists s', set_one cs_T prob "X" (VNum 5) s_T = Ok s'.
Proof. intros H. apply (C152_set_works cs_T prob "X" (VNum 5) s_T fam_T in1) in H. destruct H as (sh & a & [Hv|[]] & _). inversion Hv. Qed.
Print Assumptions C152_set_works.

(* writing all variables of a child: they are read back in order and those of the others stay *)
Theorem C152_child : forall cs c x s s', family cs -> holds cs s -> In c cs -> set_child cs c x s = Ok s' ->
  holds cs s' /\ cat (filter (fun ka => String.eqb (fst (fst ka)) (label c)) s') = x /\
  forall c' n a, label c' <> label c -> (reads s' c' n a <-> reads s c' n a).
Proof. exact set_child_spec. Qed.
Example C152_child_ex : exists s', set_child cs_T (veh line) [4; 5; 6] s_T = Ok s' /\ reads s' prob "T" [[3]].
Proof.
  destruct (proj2 (set_child_works cs_T (veh line) [4; 5; 6] s_T in0)) as [s' E]; [reflexivity|]. exists s'. split; [exact E|].
  destruct (C152_child cs_T (veh line) [4; 5; 6] s_T s' fam_T holds_T in0 E) as (_ & _ & V). apply V; [cbn; discriminate|]. right. left. reflexivity. Qed.
Print Assumptions C152_child.

(* that works exactly for a vector of the right length *)
Theorem C152_child_works : forall cs c x s, In c cs ->
  ((exists s', set_child cs c x s = Ok s') <-> length x = numbers (filter (fun ks => String.eqb (fst (fst ks)) (label c)) (layout cs))).
Proof. exact set_child_works. Qed.
Example C152_child_works_ex : ~ exists s', set_child cs_T (veh line) [4; 5] s_T = Ok s'.
Proof. intros H. apply (C152_child_works cs_T (veh line) [4; 5] s_T in0) in H. cbn in H. discriminate. Qed.
Print Assumptions C152_child_works.

(* reading without splines gives the stored array *)
Theorem C152_array : forall cs s c n a, family cs -> holds cs s -> In c cs ->
  (get_one c n false s = Ok (Array a) <-> reads s c n a).
Proof. exact get_array. Qed.
Example C152_array_ex : get_one (veh line) "splines_seg0" false s_T = Ok (Array [line]).
Proof. apply (C152_array cs_T s_T (veh line) "splines_seg0" [line] fam_T holds_T in0). left. reflexivity. Qed.
Print Assumptions C152_array.

(* reading a spline variable gives one spline per column over its basis *)
Theorem C152_splines : forall cs s c n b a, family cs -> holds cs s -> In c cs -> is_spline c n b -> reads s c n a ->
  get_one c n true s = Ok (Splines (map (mkS b) a)).
Proof. exact get_splines. Qed.
Example C152_splines_ex : get_one (veh line) "splines_seg0" true s_T = Ok (Splines [mkS kb line]).
Proof. apply (C152_splines cs_T s_T (veh line) "splines_seg0" kb [line] fam_T holds_T in0); left; reflexivity. Qed.
Print Assumptions C152_splines.

(* reading any other variable gives its array *)
Theorem C152_plain : forall cs s c n a, family cs -> holds cs s -> In c cs -> (forall b, ~ is_spline c n b) -> reads s c n a ->
  get_one c n true s = Ok (Array a).
Proof. exact get_plain. Qed.
Example C152_plain_ex : get_one prob "T" true s_T = Ok (Array [[3]]).
Proof. apply (C152_plain cs_T s_T prob "T" [[3]] fam_T holds_T in1 T_nospline). right. left. reflexivity. Qed.
Print Assumptions C152_plain.

(* reading raises only for names that are no variables *)
Theorem C152_none : forall cs s c n e sp, family cs -> holds cs s -> In c cs -> get_one c n sp s = Raise e -> forall sh, ~ is_var c n sh.
Proof. exact get_none. Qed.
Example C152_none_ex : exists e, get_one prob "X" true s_T = Raise e.
Proof. eexists. reflexivity. Qed.
Print Assumptions C152_none.

(* the vector of all numbers is stored and handed out again unchanged *)
Theorem C153_all : forall cs x s, set_all cs x = Ok s -> holds cs s /\ cat s = x.
Proof. exact set_all_spec. Qed.
Example C153_all_ex : exists s, set_all cs_T [1; 2; 3; 4] = Ok s /\ cat s = [1; 2; 3; 4].
Proof.
  destruct (proj2 (set_all_works cs_T [1; 2; 3; 4]) eq_refl) as [s E]. exists s. split; [exact E|]. apply (C153_all cs_T [1; 2; 3; 4] s E). Qed.
Print Assumptions C153_all.

(* it works exactly for the right length *)
Theorem C153_works : forall cs x, (exists s, set_all cs x = Ok s) <-> length x = numbers (layout cs).
Proof. exact set_all_works. Qed.
Example C153_works_ex : ~ exists s, set_all cs_T [1; 2; 3] = Ok s.
Proof. intros H. apply (C153_works cs_T [1; 2; 3]) in H. cbn in H. discriminate. Qed.
Print Assumptions C153_works.

(* storing what was handed out gives the same store *)
Theorem C153_back : forall cs s, holds cs s -> set_all cs (cat s) = Ok s.
Proof. exact set_all_cat. Qed.
Example C153_back_ex : set_all cs_T (cat s_T) = Ok s_T.
Proof. apply C153_back, holds_T. Qed.
Print Assumptions C153_back.

(* the length of the vector *)
Theorem C153_length : forall cs s, holds cs s -> length (cat s) = numbers (layout cs).
Proof. exact holds_length. Qed.
Example C153_length_ex : length (cat s_T) = 4%nat.
Proof. rewrite (C153_length cs_T s_T holds_T). reflexivity. Qed.
Print Assumptions C153_length.

(* where the entry (i, j) of a variable is found in the vector: behind all earlier entries, column by column *)
Theorem C153_place : forall cs s pre post c n r q i j a, family cs -> holds cs s -> In c cs ->
  layout cs = (pre ++ ((label c, n), (r, q)) :: post)%list -> reads s c n a -> (i < r)%nat -> (j < q)%nat ->
  (numbers pre + j * r + i < length (cat s))%nat /\
  nth (numbers pre + j * r + i) (cat s) 0 = entry_number a i j.
Proof. exact entry_place. Qed.
Example C153_place_ex : nth 3 (cat s_T) 0 = 3.
Proof.
  destruct (C153_place cs_T s_T [(("holonomic0"%string, "splines_seg0"%string), (3, 1)%nat)] [] prob "T" 1 1 0 0 [[3]] fam_T holds_T in1) as [_ E];
    [reflexivity|right; left; reflexivity|lia|lia|]. exact E. Qed.
Print Assumptions C153_place.

(* the last definition of a variable fixes its shape and initial value; without one the value is zero *)
Theorem C154_plain : forall pre post l n r q v,
  untouched n post -> let c := run_ops (pre ++ Plain KVar n r q v :: post) (new_child l) in
  is_var c n (r, q) /\
  dget String.eqb n (vals c) = Some (match v with Some x => x | None => VArr (repeat (repeat 0 r) q) end) /\
  dget String.eqb n (prim c) = dget String.eqb n (prim (run_ops pre (new_child l))).
Proof. exact value_plain. Qed.
Example C154_plain_ex : is_var (run_ops ([Plain KVar "T" 2 2 None] ++ Plain KVar "T" 1 1 (Some (VNum 10)) :: [Plain KPar "x" 1 1 None]) (new_child "p")) "T" (1, 1)%nat.
Proof. apply (C154_plain [Plain KVar "T" 2 2 None] [Plain KPar "x" 1 1 None] "p" "T" 1 1 (Some (VNum 10))). intros o [<-|[]]. cbn. discriminate. Qed.
Print Assumptions C154_plain.

(* a group of splines: one row per basis function, one column per spline; with size1 > 1 the names are numbered *)
Theorem C154_group : forall pre post l n s0 s1 b v m,
  untouched m post ->
  ((s1 <= 1)%nat /\ m = n) \/ ((1 < s1)%nat /\ exists l, (l < s1)%nat /\ m = (n ++ Opti_Model.py_str l)%string) ->
  let c := run_ops (pre ++ Group KVar n s0 s1 b v :: post) (new_child l) in
  is_var c m (blen b, s0) /\ is_spline c m b /\
  dget String.eqb m (prim c) = Some b /\
  dget String.eqb m (vals c) = Some (match v with Some x => x | None => VArr (repeat (repeat 0 (blen b)) s0) end).
Proof. exact value_group. Qed.
Example C154_group_ex : is_var (run_ops ([] ++ Group KVar "s" 2 3 kb None :: []) (new_child "v")) "s2" (3, 2)%nat.
Proof.
  apply (C154_group [] [] "v" "s" 2 3 kb None "s2"); [intros o []|]. right. split; [lia|]. exists 2%nat. split; [lia|reflexivity]. Qed.
Print Assumptions C154_group.

(* set_value replaces the value *)
Theorem C154_set : forall pre post l n v, untouched n post ->
  let c := run_ops (pre ++ SetValue n v :: post) (new_child l) in
  dget String.eqb n (vals c) = Some v.
Proof. exact value_set. Qed.
Example C154_set_ex : dget String.eqb "T" (vals (run_ops ([Plain KVar "T" 1 1 None] ++ SetValue "T" (VNum 4) :: []) (new_child "p"))) = Some (VNum 4).
Proof. apply (C154_set [Plain KVar "T" 1 1 None] [] "p" "T" (VNum 4)). intros o []. Qed.
Print Assumptions C154_set.

(* init_variables stores the value of every variable, a number in all its entries *)
Theorem C154_init : forall cs s c n sh v, family cs -> init_variables cs = Ok s -> In c cs -> is_var c n sh ->
  dget String.eqb n (vals c) = Some v -> exists a, stands_for sh v a /\ reads s c n a.
Proof. exact init_reads. Qed.
Example C154_init_ex : exists a, stands_for (1, 1)%nat (VNum 3) a /\ reads s_T prob "T" a.
Proof. apply (C154_init cs_T s_T prob "T" (1, 1)%nat (VNum 3) fam_T start_T in1); [left; reflexivity|reflexivity]. Qed.
Print Assumptions C154_init.

(* every variable then has an array of its shape *)
Theorem C154_shapes : forall cs s, init_variables cs = Ok s -> holds cs s.
Proof. exact init_holds. Qed.
Example C154_shapes_ex : holds cs_T s_T.
Proof. apply C154_shapes, start_T. Qed.
Print Assumptions C154_shapes.

(* it works when the values fit *)
Theorem C154_works : forall cs, family cs ->
  (forall c n sh v, In c cs -> is_var c n sh -> dget String.eqb n (vals c) = Some v -> exists a, stands_for sh v a) ->
  exists s, init_variables cs = Ok s.
Proof. exact init_works. Qed.
Example C154_works_ex : exists s, init_variables cs_T = Ok s.
Proof.
  apply C154_works; [exact fam_T|]. intros c n sh v Hc Hv Hd. destruct Hc as [<-|[<-|[]]]; destruct Hv as [Hv|[]]; inversion Hv; subst; cbn in Hd; inversion Hd; subst.
  - exists [line]. split; [|reflexivity]. split; [reflexivity|]. intros col [<-|[]]. reflexivity.
  - exists [[3]]. split; [split; [reflexivity|]; intros col [<-|[]]; reflexivity|]. intros col z [<-|[]] [<-|[]]. reflexivity. Qed.
Print Assumptions C154_works.

(* transform_primal_splines replaces exactly the spline variables whose name belongs to a segment asked for, by the given function of their array and the transformation of their basis; all others keep their values *)
Theorem C155_transform : forall (T : Type) (ini : bbasis -> res T) f init a cs s s', family cs -> holds cs s ->
  init_transformations ini cs = Ok init -> transform_primal_splines f init a cs s = Ok s' ->
  holds cs s' /\
  (forall c n b sh, In c cs -> is_spline c n b -> is_var c n sh -> hits a n ->
     exists t x x', ini b = Ok t /\ reads s c n x /\ f x b t = Ok x' /\ has_shape sh x' /\ reads s' c n x') /\
  (forall c n, In c cs -> (forall b sh, is_spline c n b -> is_var c n sh -> ~ hits a n) ->
     forall x, reads s' c n x <-> reads s c n x).
Proof. exact transform_primal. Qed.
Example C155_transform_ex : exists init s', init_transformations free_init (cs_seg "splines_seg0" "v0") = Ok init /\
  transform_primal_splines plus1 init None (cs_seg "splines_seg0" "v0") (s_seg "splines_seg0" "v0") = Ok s' /\
  reads s' (run_ops (ops_v "splines_seg0" hump) (new_child "v0")) "splines_seg0" [map (Rplus 1) hump].
Proof.
  set (cs := cs_seg "splines_seg0" "v0"). set (s := s_seg "splines_seg0" "v0").
  destruct (transform_primal_works _ free_init plus1 None cs s (fam_seg _ _) (holds_seg _ _)) as (init & s' & I & E).
  { intros c n b sh [<-|[]] [Hb|[]] [Hv|[]]. inversion Hb; inversion Hv; subst. split; [apply hit_v|].
    exists None. split; [reflexivity|]. intros _ x [Rx|[]]. inversion Rx. subst. eexists. split; [reflexivity|]. split; [reflexivity|].
    intros col [<-|[]]. reflexivity. }
  exists init, s'. split; [exact I|]. split; [exact E|].
  destruct (C155_transform _ free_init plus1 init None cs s s' (fam_seg _ _) (holds_seg _ _) I E) as (H' & D1 & _).
  destruct (D1 (run_ops (ops_v "splines_seg0" hump) (new_child "v0")) "splines_seg0"%string kb (3, 1)%nat) as (t & x & x' & _ & Rx & Ef & _ & Rx').
  { left; reflexivity. } { left; reflexivity. } { left; reflexivity. } { apply hit_v. }
  destruct Rx as [Rx|[]]. inversion Rx. subst x. unfold plus1 in Ef. inversion Ef. subst x'. exact Rx'. Qed.
Print Assumptions C155_transform.

(* it succeeds when the names can be read and the function gives arrays of the right shape *)
Theorem C155_works : forall (T : Type) (ini : bbasis -> res T) (f : arr -> bbasis -> T -> res arr) a cs s, family cs -> holds cs s ->
  (forall c n b sh, In c cs -> is_spline c n b -> is_var c n sh -> ~ unreadable n /\
     exists t, ini b = Ok t /\ (hits a n -> forall x, reads s c n x -> exists x', f x b t = Ok x' /\ has_shape sh x')) ->
  exists init s', init_transformations ini cs = Ok init /\ transform_primal_splines f init a cs s = Ok s'.
Proof. exact transform_primal_works. Qed.
Example C155_works_ex : exists init r, init_transformations free_init cs_T = Ok init /\ free_init_step 0 init cs_T prob 0 1 1 s_T = Ok r.
Proof. apply free_run. lra. Qed.
Print Assumptions C155_works.

(* a name made of a part without seg, seg, a number and anything: it can be read, and it is hit by default exactly for number 0 *)
Theorem C155_names : forall p k r, ~ has_seg p ->
  let n := (p ++ "seg" ++ Opti_Model.py_str k ++ r)%string in
  ~ unreadable n /\ (hits None n <-> k = 0%nat).
Proof. exact seg_names. Qed.
Example C155_names_ex : ~ hits None "splines_seg12".
Proof. destruct (C155_names "splines_" 12 "") as [_ H]; [apply nohas; reflexivity|]. cbn in H. intros Q. apply H in Q. discriminate. Qed.
Print Assumptions C155_names.

(* it raises when a name cannot be read *)
Theorem C155_raises : forall (T : Type) (f : arr -> bbasis -> T -> res arr) init a cs s c n b sh, family cs ->
  In c cs -> is_spline c n b -> is_var c n sh -> unreadable n -> exists e, transform_primal_splines f init a cs s = Raise e.
Proof. exact transform_primal_raises. Qed.
Example C155_raises_ex : exists e, transform_primal_splines plus1 [] None (cs_seg "a_segway0_seg0_00" "e0") (s_seg "a_segway0_seg0_00" "e0") = Raise e.
Proof.
  apply (C155_raises _ plus1 [] None _ _ (run_ops (ops_v "a_segway0_seg0_00" hump) (new_child "e0")) "a_segway0_seg0_00"%string kb (3, 1)%nat);
    [apply fam_seg|left; reflexivity|left; reflexivity|left; reflexivity|exact segway_unreadable]. Qed.
Print Assumptions C155_raises.

(* shifting segment 1 also shifts segment 10 *)
Theorem C155_ten_refuted : exists cs init s s' c x x', family cs /\ holds cs s /\ In c cs /\
  init_transformations free_init cs = Ok init /\ transform_primal_splines plus1 init (Some (inl 1%nat)) cs s = Ok s' /\
  reads s c "splines_seg10" x /\ reads s' c "splines_seg10" x' /\ x <> x'.
Proof. exact segment_ten_refuted. Qed.
Print Assumptions C155_ten_refuted.

(* the hyperplanes of a vehicle whose label contains seg cannot be shifted *)
Theorem C155_label_refuted : exists cs s c vehicle b sh, family cs /\ holds cs s /\ In c cs /\
  is_spline c ("a_" ++ vehicle ++ "_seg" ++ Opti_Model.py_str 0 ++ "_00")%string b /\
  is_var c ("a_" ++ vehicle ++ "_seg" ++ Opti_Model.py_str 0 ++ "_00")%string sh /\
  forall (T : Type) (f : arr -> bbasis -> T -> res arr) init, exists e, transform_primal_splines f init None cs s = Raise e.
Proof. exact segway_refuted. Qed.
Print Assumptions C155_label_refuted.

(* init_transformations gives every spline variable the transformation of its own basis *)
Theorem C156_init : forall (T : Type) (ini : bbasis -> res T) cs init, family cs -> init_transformations ini cs = Ok init ->
  NoDup (map fst init) /\
  forall c n b sh, In c cs -> is_spline c n b -> is_var c n sh -> exists t, ini b = Ok t /\ In ((label c, n), t) init.
Proof. exact (fun T => @init_spec T). Qed.
Example C156_init_ex : exists init, init_transformations (fun b => Ok (degree b)) cs_g = Ok init /\ In (("p2p0"%string, "g0"%string), 1%nat) init.
Proof.
  destruct (proj2 (init_works_iff (fun b => Ok (degree b)) cs_g fam_g)) as [init E]; [intros; eauto|]. exists init. split; [exact E|].
  destruct (C156_init nat (fun b => Ok (degree b)) cs_g init fam_g E) as [_ H].
  destruct (H probg "g0"%string kb (3, 1)%nat) as (t & Et & I); [right; left; reflexivity|left; reflexivity|left; reflexivity|].
  inversion Et. subst t. exact I. Qed.
Print Assumptions C156_init.

(* it raises exactly when the transformation of some basis of a spline variable does *)
Theorem C156_works : forall (T : Type) (ini : bbasis -> res T) cs, family cs ->
  ((exists init, init_transformations ini cs = Ok init) <->
   forall c n b sh, In c cs -> is_spline c n b -> is_var c n sh -> exists t, ini b = Ok t).
Proof. exact (fun T => @init_works_iff T). Qed.
Example C156_works_ex : ~ exists init, init_transformations (fun _ => @Raise nat "LinAlgError") cs_g = Ok init.
Proof.
  intros H. destruct (proj1 (C156_works nat (fun _ => Raise "LinAlgError") cs_g fam_g) H probg "g0"%string kb (3, 1)%nat) as [t E]; [right; left; reflexivity|left; reflexivity|left; reflexivity|]. discriminate. Qed.
Print Assumptions C156_works.

(* fixed motion time: within a knot interval the guess stays as it is *)
Theorem C157_within : forall init cs (ts : Q) (m k1 k2 : Z) s, (0 < ts)%Q -> (0 < m <= 1000000)%Z -> (0 <= k1)%Z -> (0 <= k2)%Z ->
  (k2 / m <= k1 / m)%Z -> fixed_init_step init cs (zq m * ts) (zq k1 * ts) (zq k2 * ts) s = Ok ((zq k2 * ts)%Q, s).
Proof. exact fixed_within. Qed.
Example C157_within_ex : fixed_init_step [] cs_g (zq 10 * (1 # 10)) (zq 3 * (1 # 10)) (zq 9 * (1 # 10)) s_g = Ok ((zq 9 * (1 # 10))%Q, s_g).
Proof. apply C157_within; try lia; reflexivity. Qed.
Print Assumptions C157_within.

(* after a knot every spline of segment 0 is the old one a knot interval later, continued by the polynomial of its last piece, and nothing else changes *)
Theorem C157_shift : forall tol init cs (ts : Q) (m k1 k2 : Z) s p s', (0 < ts)%Q -> (0 < m <= 1000000)%Z -> (0 <= k1)%Z -> (0 <= k2)%Z ->
  (k1 / m < k2 / m)%Z -> family cs -> holds cs s -> init_transformations (fixed_init tol) cs = Ok init ->
  fixed_init_step init cs (zq m * ts) (zq k1 * ts) (zq k2 * ts) s = Ok (p, s') ->
  p = (zq k2 * ts)%Q /\ holds cs s' /\
  (forall c n d K h sh x, 0 <= tol -> In c cs -> is_spline c n (equidistant d K h) -> is_var c n sh -> fst sh = (K + d)%nat -> hits None n ->
     0 < h -> (2 <= K)%nat -> (1 <= d <= K)%nat -> reads s c n x ->
     exists x', reads s' c n x' /\ has_shape sh x' /\ forall j, (j < length x)%nat ->
       let old := mkS (equidistant d K h) (nth j x []) in let new := mkS (equidistant d K h) (nth j x' []) in
       (forall u, 0 <= u <= INR (K - 1) * h -> Rabs (call new u - call old (u + h)) <= tol * size_of (coeffs old)) /\
       exists a, length a = (d + 1)%nat /\ (forall u, INR (K - 1) * h < u <= INR K * h -> call old u = poly a u) /\
         forall u, INR (K - 1) * h < u <= INR K * h -> Rabs (call new u - poly a (u + h)) <= tol * size_of (coeffs old)) /\
  same_vars cs s s' (fun c n => hits None n /\ exists b sh, is_spline c n b /\ is_var c n sh).
Proof. exact fixed_shift. Qed.
Example C157_shift_ex : exists init s' x', init_transformations (fixed_init 0) cs_g = Ok init /\
  fixed_init_step init cs_g (zq 1 * 1) (zq 0 * 1) (zq 1 * 1) s_g = Ok ((zq 1 * 1)%Q, s') /\
  reads s' (veh hump) "splines_seg0" [x'] /\ call (mkS kb x') 0 = 1.
Proof.
  destruct slack_refuted_witness as (init & s' & x' & H). exists init, s', x'. exact H. Qed.
Print Assumptions C157_shift.

(* it works for equidistant bases of degree one to three and names that can be read *)
Theorem C157_works : forall tol cs (ts : Q) (m k1 k2 : Z) s, family cs -> holds cs s ->
  (forall c n b sh, In c cs -> is_spline c n b -> is_var c n sh -> ~ unreadable n /\
     exists d K h, b = equidistant d K h /\ 0 < h /\ (2 <= K)%nat /\ (1 <= d <= 3)%nat /\ (d <= K)%nat /\ fst sh = (K + d)%nat) ->
  exists init r, init_transformations (fixed_init tol) cs = Ok init /\
    fixed_init_step init cs (zq m * ts) (zq k1 * ts) (zq k2 * ts) s = Ok r.
Proof. exact fixed_works. Qed.
Example C157_works_ex : kb = equidistant 1 2 (1 / 2) /\ exists init r, init_transformations (fixed_init 0) cs_g = Ok init /\
  fixed_init_step init cs_g (zq 1 * 1) (zq 0 * 1) (zq 1 * 1) s_g = Ok r.
Proof. split; [reflexivity|]. destruct slack_refuted_witness as (init & s' & x' & I & E & _). exists init, (zq 1 * 1, s')%Q. split; assumption. Qed.
Print Assumptions C157_works.

(* the slack splines are not taken along: the guess no longer meets the constraints it met *)
Theorem C157_slack_refuted : exists tol cs init s s' v p,
  0 <= tol /\ family cs /\ holds cs s /\ In v cs /\ In p cs /\
  init_transformations (fixed_init tol) cs = Ok init /\
  fixed_init_step init cs (inject_Z 1 * 1) (inject_Z 0 * 1) (inject_Z 1 * 1) s = Ok ((inject_Z 1 * 1)%Q, s') /\
  exists b x g x' g', reads s v "splines_seg0" [x] /\ reads s p "g0" [g] /\ reads s' v "splines_seg0" [x'] /\ reads s' p "g0" [g'] /\
    (forall t, 0 <= t <= 1 -> call (mkS b x) t <= call (mkS b g) t) /\ call (mkS b g') 0 < call (mkS b x') 0.
Proof. exact slack_refuted. Qed.
Print Assumptions C157_slack_refuted.

(* free motion time: the new coefficients with the old basis give the old spline over the rest of the motion: at the start, at the end *)
Theorem C158_guess : forall tol c t d K h c2, 0 <= tol -> 0 < h -> (2 <= K)%nat -> 0 <= t < INR K * h ->
  let b := equidistant d K h in let e := INR K * h in
  length c = (K + d)%nat -> shift_spline tol c t b = Some c2 ->
  length c2 = (K + d)%nat /\
  (forall x, call (mkS b c2) x = call (mkS (shifted_basis t b) c2) (t + x * ((e - t) / e))) /\
  Rabs (call (mkS b c2) 0 - call (mkS b c) t) <= tol * size_of c /\
  ((1 <= d)%nat -> Rabs (call (mkS b c2) e - call (mkS b c) e) <= tol * size_of c).
Proof. exact shift_spline_guess. Qed.
Example C158_guess_ex : exists c2, shift_spline 0 line (1 / 3) kb = Some c2 /\ call (mkS kb c2) 0 = 1 / 3 /\ call (mkS kb c2) 1 = 1.
Proof.
  destruct (shift_kb 0 (1 / 3) line ltac:(lra)) as [c2 E]. exists c2. split; [exact E|].
  destruct (C158_guess 0 line (1 / 3) 1 2 (1 / 2) c2) as (_ & _ & A & B); try lra; try lia; [cbn; lra|reflexivity|exact E|].
  specialize (B (le_n 1)). rewrite Rmult_0_l in A, B. apply Splop_Proofs3.close_0 in A. apply Splop_Proofs3.close_0 in B. fold kb in A, B.
  replace (INR 2 * (1 / 2)) with 1 in B by (cbn; field). rewrite call_line in A by lra. rewrite call_line in B by lra. split; assumption. Qed.
Print Assumptions C158_guess.

(* and at a point for every basis function, where that function is largest on the grid *)
Theorem C158_points : forall tol c t b c2 K, 0 <= tol -> (blen b = K + degree b)%nat -> (2 <= K)%nat -> t < last (knots b) 0 ->
  length c = blen b -> shift_spline tol c t b = Some c2 ->
  let b2 := shifted_basis t b in let e := last (knots b) 0 in
  clamped_on b2 t e /\ blen b2 = blen b /\ length c2 = blen b /\
  (forall j, (j < blen b)%nat -> exists i, (i < no_points)%nat /\
     (forall i', (i' < no_points)%nat -> nth j (eval_basis b2 (grid_pt b2 i')) 0 <= nth j (eval_basis b2 (grid_pt b2 i)) 0) /\
     Rabs (call (mkS b2 c2) (grid_pt b2 i) - call (mkS b c) (grid_pt b2 i)) <= tol * size_of c) /\
  Rabs (call (mkS b2 c2) t - call (mkS b c) t) <= tol * size_of c /\
  ((1 <= degree b)%nat -> Rabs (call (mkS b2 c2) e - call (mkS b c) e) <= tol * size_of c).
Proof. exact shift_spline_points. Qed.
Example C158_points_ex : exists c2, shift_spline 0 hump (1 / 3) kb = Some c2 /\ length c2 = 3%nat.
Proof.
  destruct (shift_kb 0 (1 / 3) hump ltac:(lra)) as [c2 E]. exists c2. split; [exact E|].
  assert (LK : last (knots kb) 0 = 1) by (unfold kb; rewrite eq_last_knot by (lra || lia); cbn; field).
  destruct (C158_points 0 hump (1 / 3) kb c2 2) as (_ & _ & L & _); try lra; try lia; auto. Qed.
Print Assumptions C158_points.

(* after the start the motion time becomes the rest, the splines of segment 0 are taken over the rest of the motion and nothing else changes *)
Theorem C158_step : forall tol init cs p start now update s s' T col cols, start < now -> family cs -> holds cs s -> In p cs ->
  (forall b, ~ is_spline p "T" b) -> reads s p "T" ((T :: col) :: cols) ->
  init_transformations free_init cs = Ok init ->
  free_init_step tol init cs p start now update s = Ok s' ->
  let shift := if Rlt_dec T (2 * update) then T - update else update in
  let target := if Rlt_dec T (2 * update) then T else T - update in
  holds cs s' /\
  (forall x, reads s' p "T" x -> forall col z, In col x -> In z col -> z = target) /\
  exists s1, holds cs s1 /\ rest_of cs None tol (shift / target) s s1 /\
    same_vars cs s s1 (fun c n => hits None n /\ exists b sh, is_spline c n b /\ is_var c n sh) /\
    same_vars cs s1 s' (fun c n => c = p /\ n = "T"%string).
Proof. exact free_shift. Qed.
Example C158_step_ex : exists init s', init_transformations free_init cs_T = Ok init /\ free_init_step 0 init cs_T prob 0 1 1 s_T = Ok s' /\ reads s' prob "T" [[3 - 1]].
Proof.
  destruct (free_run 0 0 1 Rlt_0_1) as (init & s' & I & E). exists init, s'. split; [exact I|]. split; [exact E|].
  destruct (C158_step 0 init cs_T prob 0 1 1 s_T s' 3 [] [] Rlt_0_1 fam_T holds_T in1 T_nospline read_T I E) as (H' & TT & _).
  destruct (Rlt_dec 3 (2 * 1)) as [Q|_]; [lra|].
  assert (VT : is_var prob "T" (1, 1)%nat) by (left; reflexivity).
  destruct (holds_reads cs_T s' prob "T" _ fam_T H' in1 VT) as (a & Ra & [La Sa] & _).
  destruct a as [|col [|? ?]]; cbn in La; try lia. pose proof (Sa col in0) as Lc. destruct col as [|z [|? ?]]; cbn in Lc; try lia.
  rewrite <- (TT _ Ra [z] z in0 in0). exact Ra. Qed.
Print Assumptions C158_step.

(* no shift while the time is not past the start time *)
Theorem C158_none : forall tol init cs p start now update s, now <= start ->
  free_init_step tol init cs p start now update s = Ok s.
Proof. exact free_none. Qed.
Example C158_none_ex : free_init_step 0 [] cs_T prob 5 1 1 s_T = Ok s_T.
Proof. apply C158_none. lra. Qed.
Print Assumptions C158_none.

(* several frames: only the splines of the first one are taken along, its motion time is shortened *)
Theorem C158_frames : forall tol init cs p n start now update s s' Ts, start < now -> family cs -> holds cs s -> In p cs ->
  length Ts = S n -> (forall i, (i < S n)%nat -> time_of s p i (nth i Ts 0)) -> 
  init_transformations free_init cs = Ok init ->
  frames_init_step tol init cs p (S n) start now update s = Ok s' ->
  let T := total Ts in
  let shift := if Rlt_dec T (2 * update) then T - update else update in
  let target := if Rlt_dec T (2 * update) then T else T - update in
  holds cs s' /\
  (forall x, reads s' p "T0" x -> forall col z, In col x -> In z col -> z = nth 0 Ts 0 - shift) /\
  exists s1, holds cs s1 /\ rest_of cs None tol (shift / target) s s1 /\
    same_vars cs s s1 (fun c n => hits None n /\ exists b sh, is_spline c n b /\ is_var c n sh) /\
    same_vars cs s1 s' (fun c n => c = p /\ n = "T0"%string).
Proof. exact frames_shift. Qed.
Example C158_frames_ex : exists init s', init_transformations free_init cs_F = Ok init /\
  frames_init_step 0 init cs_F frm 2 0 1 1 s_F = Ok s' /\ forall x, reads s' frm "T0" x -> forall col z, In col x -> In z col -> z = 2 - 1.
Proof.
  destruct frames_run as (init & s' & I & E). exists init, s'. split; [exact I|]. split; [exact E|].
  destruct (C158_frames 0 init cs_F frm 1 0 1 1 s_F s' [2; 3] Rlt_0_1 fam_F holds_F in1 eq_refl times_F I E) as (_ & TT & _).
  unfold total in TT. cbn in TT. destruct (Rlt_dec _ _) as [Q|_] in TT; [lra|]. exact TT. Qed.
Print Assumptions C158_frames.

(* no shift while the time is not past the start time *)
Theorem C158_frames_none : forall tol init cs p n start now update s, now <= start ->
  frames_init_step tol init cs p n start now update s = Ok s.
Proof. exact frames_none. Qed.
Example C158_frames_none_ex : frames_init_step 0 [] cs_T prob 1 5 1 1 s_T = Ok s_T.
Proof. apply C158_frames_none. lra. Qed.
Print Assumptions C158_frames_none.

(* the new guess does not start where the old one is after the update time *)
Theorem C158_start_refuted : exists cs init p v s s' T update b x x', family cs /\ holds cs s /\ In p cs /\ In v cs /\
  init_transformations free_init cs = Ok init /\ free_init_step 0 init cs p 0 1 update s = Ok s' /\
  0 < update < T /\ reads s p "T" [[T]] /\ reads s' p "T" [[T - update]] /\
  is_spline v "splines_seg0" b /\ reads s v "splines_seg0" [x] /\ reads s' v "splines_seg0" [x'] /\
  call (mkS b x') 0 <> call (mkS b x) (update / T).
Proof. exact free_start_refuted. Qed.
Print Assumptions C158_start_refuted.

(* with a start time the guess is not taken along at first: the start time is subtracted twice *)
Theorem C158_twice_refuted : exists cs init p s start now update, family cs /\ holds cs s /\ In p cs /\
  init_transformations free_init cs = Ok init /\ start < now /\ reads s p "T" [[3]] /\ 2 * update < 3 /\
  (forall reset solver, solve cs start now (fun rel => free_init_step 0 init cs p start rel update) reset solver s =
     solve cs start now (fun _ s => Ok s) reset solver s) /\
  exists s', free_init_step 0 init cs p 0 (now - start) update s = Ok s' /\ ~ reads s' p "T" [[3]].
Proof. exact twice_start_refuted. Qed.
Print Assumptions C158_twice_refuted.

(* solve stores the point of the solver whatever its status; only when the time of the solver ran out after the first call the guess is reset *)
Theorem C159_solve : forall cs start now step reset solver s s1 x status, 
  step (now - start) s = Ok s1 -> solver (cat s1) = (x, status) -> length x = numbers (layout cs) ->
  exists s2, holds cs s2 /\ cat s2 = x /\
    ((status <> "Maximum_CpuTime_Exceeded"%string \/ now = start) -> solve cs start now step reset solver s = Ok s2) /\
    (status = "Maximum_CpuTime_Exceeded"%string -> now <> start -> solve cs start now step reset solver s = reset s2).
Proof. exact solve_stores. Qed.
Example C159_solve_ex : exists s2, cat s2 = [1; 2; 3; 4] /\ solve cs_T 0 1 (fun _ s => Ok s) (fun _ => Ok s_T) (fun _ => ([1; 2; 3; 4], "Solve_Succeeded"%string)) s_T = Ok s2.
Proof.
  destruct (C159_solve cs_T 0 1 (fun _ s => Ok s) (fun _ => Ok s_T) (fun _ => ([1; 2; 3; 4], "Solve_Succeeded"%string)) s_T s_T [1; 2; 3; 4]
    "Solve_Succeeded" eq_refl eq_refl eq_refl) as (s2 & _ & C & E & _). exists s2. split; [exact C|]. apply E. left. discriminate. Qed.
Print Assumptions C159_solve.

(* up to twice the start time the solver is given the guess as it is *)
Theorem C159_twice : forall tol init cs p start now update reset solver s, now <= 2 * start ->
  solve cs start now (fun rel => free_init_step tol init cs p start rel update) reset solver s =
  solve cs start now (fun _ s => Ok s) reset solver s.
Proof. exact solve_twice. Qed.
Example C159_twice_ex : solve cs_T 5 9 (fun rel => free_init_step 0 [] cs_T prob 5 rel 1) (fun s => Ok s) (fun x => (x, "Solve_Succeeded"%string)) s_T =
  solve cs_T 5 9 (fun _ s => Ok s) (fun s => Ok s) (fun x => (x, "Solve_Succeeded"%string)) s_T.
Proof. apply C159_twice. lra. Qed.
Print Assumptions C159_twice.

(* a point that is not feasible replaces the guess all the same *)
Theorem C159_infeasible_refuted : exists cs s s' x, holds cs s /\
  solve cs 0 1 (fun _ s => Ok s) (fun _ => Ok s) (fun _ => (x, "Infeasible_Problem_Detected"%string)) s = Ok s' /\
  cat s' = x /\ s' <> s.
Proof. exact infeasible_refuted. Qed.
Print Assumptions C159_infeasible_refuted.

(* sleep: every spline of a group stands still at the end value of the stored one *)
Theorem C160_hold : forall cs s c n b sh x, family cs -> holds cs s -> In c cs -> is_spline c n b -> is_var c n sh -> reads s c n x ->
  exists l, hold_segment c n s = Ok l /\ length l = length x /\
  forall lo hi, clamped_on b lo hi -> fst sh = blen b -> forall j t, (j < length x)%nat -> lo <= t <= hi ->
    call (nth j l (mkS b [])) t = call (mkS b (nth j x [])) hi.
Proof. exact hold_spec. Qed.
Example C160_hold_ex : exists l, hold_segment (veh line) "splines_seg0" s_T = Ok l /\ call (nth 0 l (mkS kb [])) (1 / 2) = 1.
Proof.
  destruct (C160_hold cs_T s_T (veh line) "splines_seg0" kb (3, 1)%nat [line] fam_T holds_T in0 (spl_v line) (var_v line) in0) as (l & E & _ & H).
  exists l. split; [exact E|]. rewrite (H 0 1 kb_clamped eq_refl 0%nat (1 / 2)); [|cbn; lia|lra]. apply call_line. lra. Qed.
Print Assumptions C160_hold.

(* the same for all segments of a vehicle *)
Theorem C160_sleep : forall cs s c lo hi n k, family cs -> holds cs s -> In c cs ->
  (forall i, (i < n)%nat -> exists b q x, let nm := ("splines_seg" ++ Opti_Model.py_str (k + i))%string in
      is_spline c nm b /\ is_var c nm (blen b, q) /\ clamped_on b lo hi /\ reads s c nm x) ->
  exists ls, sleep_segments c k n s = Ok ls /\ length ls = n /\
  forall i, (i < n)%nat -> forall b x, let nm := ("splines_seg" ++ Opti_Model.py_str (k + i))%string in
    is_spline c nm b -> reads s c nm x -> length (nth i ls []) = length x /\
    forall j t, (j < length x)%nat -> lo <= t <= hi -> call (nth j (nth i ls []) (mkS b [])) t = call (mkS b (nth j x [])) hi.
Proof. exact sleep_spec. Qed.
Example C160_sleep_ex : exists ls, sleep_segments (veh line) 0 1 s_T = Ok ls /\ length ls = 1%nat.
Proof.
  destruct (C160_sleep cs_T s_T (veh line) 0 1 1 0 fam_T holds_T in0) as (ls & E & L & _).
  - intros i Hi. destruct i as [|i]; [|lia]. exists kb, 1%nat, [line]. split; [apply spl_v|]. split; [apply var_v|]. split; [exact kb_clamped|left; reflexivity].
  - exists ls. auto. Qed.
Print Assumptions C160_sleep.
