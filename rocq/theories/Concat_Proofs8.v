(** Proofs about concat_splines: examples, the joints at which it goes wrong. *)
From Coq Require Import Reals Lra Lia List Permutation Arith ZArith.
From Verif Require Import Blossom Spline_Model Spline_Spec Spline_Proofs Spline_Proofs2 Spline_Proofs3 Spline_Proofs5
  Splop_Model Splop_Spec Splop_Proofs Splop_Proofs2 Splop_Proofs4 Obst_Model Obst_Proofs Span_Proofs End_Proofs Contact_Proofs
  Multi_Model Multi_Spec Multi_Proofs Multi_Proofs2 Concat_Model Concat_Spec Concat_Proofs Concat_Proofs2 Concat_Proofs3 Concat_Proofs4
  Concat_Proofs5 Concat_Proofs6 Concat_Proofs7.
Import ListNotations.
Local Open Scope R_scope.

(** ** when the linear system can be solved *)
Lemma join_exists : forall n P s T t b, n <> (Z.of_nat (degree (sbasis P)) + 1)%Z ->
  concat_basis (degree (sbasis P)) n P s T = b ->
  (forall y, length y = blen b -> (forall x, In x (sites b) -> call (mkS b y) x = 0) -> y = repeat 0 (blen b)) ->
  exists r, join n P s T t = Some r.
Proof.
  intros n P s T t b Hn <- OZ. unfold join. cbv zeta.
  destruct (Z.eqb_spec n (Z.of_nat (degree (sbasis P)) + 1)) as [E|_]; [contradiction|].
  set (b := concat_basis (degree (sbasis P)) n P s T) in *.
  destruct (gsolve_total (blen b) (concat_system b P (scale s T t))) as [c E].
  - unfold concat_system. rewrite map_length. apply sites_len.
  - intros r I. unfold concat_system in I. apply in_map_iff in I. destruct I as (x & <- & _). cbn [fst]. apply blen_eval.
  - intros y L H. apply OZ; [exact L|]. intros x I. unfold call. cbn [sbasis coeffs]. apply H.
    unfold concat_system. rewrite map_map. cbn [fst]. apply (in_map (fun x => eval_basis b x)). exact I.
  - rewrite E. eexists. reflexivity.
Qed.

Ltac piece J :=
  match goal with |- context [call (mkS ?b ?y) ?x] =>
    rewrite (call_diag (mkS b y) x J);
    [ unfold diag; cbn [sbasis coeffs degree knots Nat.sub shn repeat bl length]; unfold dbstep, sh, cf, kn;
      cbn [sbasis coeffs degree knots nth Nat.add]
    | | reflexivity | unfold active, kn; cbn [sbasis coeffs degree knots nth Nat.add length]; repeat split; try lia; try lra ] end.


Definition lerp (w a b : R) : R := (1 - w) * a + w * b.

(** knots 0 0 0 1 3 3 3 *)
Definition jb1 : bbasis := mkB [0; 0; 0; 1; 3; 3; 3] 2.
Lemma jb1_sorted : nondecreasing (knots jb1).
Proof. knots_ok. Qed.
Lemma jb1_left : forall a b c d x, 0 < x <= 1 ->
  call (mkS jb1 [a; b; c; d]) x = lerp x (lerp x a b) (lerp (x / 3) b c).
Proof. intros a b c d x Hx. unfold jb1, lerp. piece 2%nat; [field|apply jb1_sorted]. Qed.
Lemma jb1_right : forall a b c d x, 1 < x <= 3 ->
  call (mkS jb1 [a; b; c; d]) x = lerp ((x - 1) / 2) (lerp (x / 3) b c) (lerp ((x - 1) / 2) c d).
Proof. intros a b c d x Hx. unfold jb1, lerp. piece 3%nat; [field|apply jb1_sorted]. Qed.
Lemma jb1_sites : sites jb1 = [1 / 200; 1 / 2; 2; 299 / 100].
Proof.
  unfold sites, greville, jb1, blen. cbn [knots degree length Nat.sub seq map fold_left]. unfold kn.
  cbn [knots nth Nat.add]. cbn [move_first]. unfold move_last. cbn [rev app]. simpl INR.
  repeat match goal with |- _ :: _ = _ :: _ => f_equal end; try reflexivity; field.
Qed.
Lemma jb1_regular : forall y, length y = blen jb1 -> (forall x, In x (sites jb1) -> call (mkS jb1 y) x = 0) ->
  y = repeat 0 (blen jb1).
Proof.
  intros y L H. change (blen jb1) with 4%nat in *. destruct y as [|a [|b [|c [|d [|e y]]]]]; try discriminate.
  rewrite jb1_sites in H.
  assert (H1 := H (1 / 200) ltac:(simpl; auto)). assert (H2 := H (1 / 2) ltac:(simpl; auto)).
  assert (H3 := H 2 ltac:(simpl; auto)). assert (H4 := H (299 / 100) ltac:(simpl; auto)).
  rewrite jb1_left in H1, H2 by lra. rewrite jb1_right in H3, H4 by lra. unfold lerp in *.
  simpl. repeat f_equal; lra.
Qed.

(** knots 0 0 0 1 1 2 2 2 *)
Definition jb2 : bbasis := mkB [0; 0; 0; 1; 1; 2; 2; 2] 2.
Lemma jb2_sorted : nondecreasing (knots jb2).
Proof. knots_ok. Qed.
Lemma jb2_left : forall a b c d e x, 0 < x <= 1 ->
  call (mkS jb2 [a; b; c; d; e]) x = lerp x (lerp x a b) (lerp x b c).
Proof. intros a b c d e x Hx. unfold jb2, lerp. piece 2%nat; [field|apply jb2_sorted]. Qed.
Lemma jb2_right : forall a b c d e x, 1 < x <= 2 ->
  call (mkS jb2 [a; b; c; d; e]) x = lerp (x - 1) (lerp (x - 1) c d) (lerp (x - 1) d e).
Proof. intros a b c d e x Hx. unfold jb2, lerp. piece 4%nat; [field|apply jb2_sorted]. Qed.
Lemma jb2_sites : sites jb2 = [1 / 200; 1 / 2; 1; 3 / 2; 399 / 200].
Proof.
  unfold sites, greville, jb2, blen. cbn [knots degree length Nat.sub seq map fold_left]. unfold kn.
  cbn [knots nth Nat.add]. cbn [move_first]. unfold move_last. cbn [rev app]. simpl INR.
  repeat match goal with |- _ :: _ = _ :: _ => f_equal end; try reflexivity; field.
Qed.
Lemma jb2_regular : forall y, length y = blen jb2 -> (forall x, In x (sites jb2) -> call (mkS jb2 y) x = 0) ->
  y = repeat 0 (blen jb2).
Proof.
  intros y L H. change (blen jb2) with 5%nat in *. destruct y as [|a [|b [|c [|d [|e [|f y]]]]]]; try discriminate.
  rewrite jb2_sites in H.
  assert (H1 := H (1 / 200) ltac:(simpl; auto)). assert (H2 := H (1 / 2) ltac:(simpl; auto)).
  assert (H3 := H 1 ltac:(simpl; auto)). assert (H4 := H (3 / 2) ltac:(simpl; auto)).
  assert (H5 := H (399 / 200) ltac:(simpl; auto 6)).
  rewrite jb2_left in H1, H2, H3 by lra. rewrite jb2_right in H4, H5 by lra. unfold lerp in *.
  simpl. repeat f_equal; lra.
Qed.

(** knots 0 0 0 0 1 2 2 2 2 *)
Definition jb3 : bbasis := mkB [0; 0; 0; 0; 1; 2; 2; 2; 2] 3.
Lemma jb3_sorted : nondecreasing (knots jb3).
Proof. knots_ok. Qed.
Lemma jb3_left : forall a b c d e x, 0 < x <= 1 ->
  call (mkS jb3 [a; b; c; d; e]) x
  = lerp x (lerp x (lerp x a b) (lerp (x / 2) b c)) (lerp (x / 2) (lerp (x / 2) b c) (lerp (x / 2) c d)).
Proof. intros a b c d e x Hx. unfold jb3, lerp. piece 3%nat; [field|apply jb3_sorted]. Qed.
Lemma jb3_right : forall a b c d e x, 1 < x <= 2 ->
  call (mkS jb3 [a; b; c; d; e]) x
  = lerp (x - 1) (lerp (x / 2) (lerp (x / 2) b c) (lerp (x / 2) c d)) (lerp (x - 1) (lerp (x / 2) c d) (lerp (x - 1) d e)).
Proof. intros a b c d e x Hx. unfold jb3, lerp. piece 4%nat; [field|apply jb3_sorted]. Qed.
Lemma jb3_sites : sites jb3 = [1 / 300; 1 / 3; 1; 5 / 3; 599 / 300].
Proof.
  unfold sites, greville, jb3, blen. cbn [knots degree length Nat.sub seq map fold_left]. unfold kn.
  cbn [knots nth Nat.add]. cbn [move_first]. unfold move_last. cbn [rev app]. simpl INR.
  repeat match goal with |- _ :: _ = _ :: _ => f_equal end; try reflexivity; field.
Qed.
Lemma jb3_regular : forall y, length y = blen jb3 -> (forall x, In x (sites jb3) -> call (mkS jb3 y) x = 0) ->
  y = repeat 0 (blen jb3).
Proof.
  intros y L H. change (blen jb3) with 5%nat in *. destruct y as [|a [|b [|c [|d [|e [|f y]]]]]]; try discriminate.
  rewrite jb3_sites in H.
  assert (H1 := H (1 / 300) ltac:(simpl; auto)). assert (H2 := H (1 / 3) ltac:(simpl; auto)).
  assert (H3 := H 1 ltac:(simpl; auto)). assert (H4 := H (5 / 3) ltac:(simpl; auto)).
  assert (H5 := H (599 / 300) ltac:(simpl; auto 6)).
  rewrite jb3_left in H1, H2, H3 by lra. rewrite jb3_right in H4, H5 by lra. unfold lerp in *.
  simpl. repeat f_equal; lra.
Qed.

(** ** two segments of one signal *)
Lemma concat_two : forall s1 s2 T1 T2 n m r, degree (sbasis s2) = degree (sbasis s1) ->
  used_insert n [[s1]; [s2]] [T1; T2] = Some m -> join m (scale s1 T1 0) s2 T2 T1 = Some r ->
  concat_splines [[s1]; [s2]] [T1; T2] n = Some [r].
Proof.
  intros s1 s2 T1 T2 n m r D U J. cbn [concat_splines map concat_loop join_all].
  change (degree (sbasis (scale s1 T1 0))) with (degree (sbasis s1)).
  rewrite D, Nat.eqb_refl. destruct n as [m'|]; cbn [used_insert] in U; injection U as <-; rewrite J; reflexivity.
Qed.
Lemma concat_two_inv : forall s1 s2 T1 T2 n m rs, degree (sbasis s2) = degree (sbasis s1) ->
  used_insert n [[s1]; [s2]] [T1; T2] = Some m -> concat_splines [[s1]; [s2]] [T1; T2] n = Some rs ->
  exists r, rs = [r] /\ join m (scale s1 T1 0) s2 T2 T1 = Some r.
Proof.
  intros s1 s2 T1 T2 n m rs D U. cbn [concat_splines map concat_loop join_all].
  change (degree (sbasis (scale s1 T1 0))) with (degree (sbasis s1)).
  rewrite D, Nat.eqb_refl.
  destruct n as [m'|]; cbn [used_insert] in U; injection U as <-; (destruct (join _ _ s2 T2 T1) as [r|]; [|discriminate]);
    intros H; injection H as <-; eexists; split; reflexivity.
Qed.

Ltac same_knots :=
  unfold concat_basis, head_knots, tail_knots, py_prefix, scale, scale_basis; cbv zeta; cbn [sbasis knots degree map length obasis];
  simpl; f_equal; repeat match goal with |- _ :: _ = _ :: _ => f_equal end; try reflexivity; ring.

Lemma stored_exists : exists rs, store_splines [seg_a; seg_b] [1; 2] (Some (gcode_continuity [seg_a; seg_b])) 2 = Some rs.
Proof.
  unfold seg_a, seg_b. cbn [gcode_continuity sbasis degree obasis]. unfold store_splines, store_insert.
  destruct (join_exists 1 (scale (mkS obasis [0; 0; 1]) 1 0) (mkS obasis [1; 3; 5]) 2 1 jb1) as [r J].
  - discriminate.
  - unfold jb1. same_knots.
  - exact jb1_regular.
  - exists [r]. apply (concat_two _ _ _ _ _ 1%Z); auto.
Qed.

(** second derivatives of the quadratic pieces *)
Lemma quad_second : forall a b c x, 0 <= x <= 1 -> call (derivative (mkS obasis [a; b; c]) 2) x = 2 * (c - 2 * b + a).
Proof.
  intros a b c x Hx.
  assert (E : derivative (mkS obasis [a; b; c]) 2 = mkS (mkB [0; 1] 0) [2 * (c - 2 * b + a)]).
  { unfold derivative. simpl. f_equal. unfold deriv_step. simpl. apply f_equal2; [field|reflexivity]. }
  rewrite E. unfold call, eval_basis. cbn [sbasis coeffs degree basis_row knots length Nat.sub seq map].
  unfold ind, kn, Reqb, Rleb, Rltb, b2R. cbn [knots length Nat.sub seq map nth degree Nat.add Nat.ltb Nat.leb andb].
  destruct (Req_EM_T 0 0); [|lra]. destruct (Rle_dec 0 x); [|lra]. destruct (Rle_dec x 1); [|lra]. simpl. ring.
Qed.

Lemma quad_in_seconds : forall a b c T, 0 < T ->
  in_seconds (mkS obasis [a; b; c]) T 0 0 = a /\ in_seconds (mkS obasis [a; b; c]) T 0 T = c /\
  in_seconds (mkS obasis [a; b; c]) T 1 0 = 2 * (b - a) / T /\ in_seconds (mkS obasis [a; b; c]) T 1 T = 2 * (c - b) / T /\
  in_seconds (mkS obasis [a; b; c]) T 2 0 = 2 * (c - 2 * b + a) / T ^ 2 /\
  in_seconds (mkS obasis [a; b; c]) T 2 T = 2 * (c - 2 * b + a) / T ^ 2.
Proof.
  intros a b c T HT. unfold in_seconds. replace (0 / T) with 0 by (field; lra). replace (T / T) with 1 by (field; lra).
  rewrite quad_derivative, !quad_second, !line_call by lra.
  change (derivative (mkS obasis [a; b; c]) 0) with (mkS obasis [a; b; c]). rewrite quad_start, quad_end.
  repeat split; field; lra.
Qed.

Lemma quad_proper : forall a b c, proper 2 (mkS obasis [a; b; c]).
Proof. intros a b c. destruct (quad_regular a b c) as (A & B & C & _). repeat split; auto; apply A. Qed.

(** the same segments without a requested continuity: one knot is kept *)
Lemma stored_exists_moving : exists rs, store_splines [seg_a; seg_b] [1; 2] None 2 = Some rs.
Proof.
  unfold seg_a, seg_b. unfold store_splines, store_insert.
  destruct (join_exists 1 (scale (mkS obasis [0; 0; 1]) 1 0) (mkS obasis [1; 3; 5]) 2 1 jb1) as [r J].
  - discriminate.
  - unfold jb1. same_knots.
  - exact jb1_regular.
  - exists [r]. apply (concat_two _ _ _ _ _ 1%Z); auto.
    cbn [used_insert]. f_equal.
    destruct (quad_in_seconds 0 0 1 1 ltac:(lra)) as (_ & A0 & _ & A1 & _ & A2).
    destruct (quad_in_seconds 1 3 5 2 ltac:(lra)) as (B0 & _ & B1 & _ & B2 & _).
    rewrite (computed_first 2 _ _ _ _ 2); [reflexivity|apply quad_proper|apply quad_proper|lra|lra|lia| |].
    + intros d Hd. destruct d as [|[|d]]; [rewrite A0, B0|rewrite A1, B1; replace (2 * (3 - 1) / 2) with (2 * (1 - 0) / 1) by field|lia];
        rewrite same_equal; destruct (Req_EM_T _ 0); lra || reflexivity.
    + rewrite A2, B2. unfold same_value, Reqb, Rleb. destruct (Req_EM_T _ 0); [reflexivity|].
      destruct (Rle_dec _ _) as [L|]; [|reflexivity]. exfalso.
      replace (2 * (5 - 2 * 3 + 1) / 2 ^ 2) with 0 in L by field. replace (2 * (1 - 2 * 0 + 0) / 1 ^ 2) with 2 in L by field.
      replace (0 - 2) with (- (2)) in L by ring. rewrite Rabs_Ropp, Rabs_pos_eq in L by lra. lra.
Qed.

(** ** a standstill at the joint: the stored value there is twice the value of the segments *)
Theorem standstill_refuted : exists sg1 sg2 rs, regular_segments 2 1 [sg1; sg2] /\
  Forall (fun v => v = 0) (connections [sg1; sg2] [1; 1]) /\
  store_splines [sg1; sg2] [1; 1] None 2 = Some rs /\
  travelled (component 0 [sg1; sg2] [1; 1]) 0 1 = 1 /\ call (nth 0 rs no_spline) 1 = 2.
Proof.
  exists [mkS obasis [0; 1; 1]], [mkS obasis [1; 1; 0]].
  destruct (quad_in_seconds 0 1 1 1 ltac:(lra)) as (_ & A0 & _ & A1 & _ & _).
  destruct (quad_in_seconds 1 1 0 1 ltac:(lra)) as (B0 & _ & B1 & _ & _ & _).
  destruct (join_exists 2 (scale (mkS obasis [0; 1; 1]) 1 0) (mkS obasis [1; 1; 0]) 1 1 jb2) as [r J].
  - discriminate.
  - unfold jb2. same_knots.
  - exact jb2_regular.
  - assert (PS : regular_segments 2 1 [[mkS obasis [0; 1; 1]]; [mkS obasis [1; 1; 0]]]).
    { constructor; [split; [reflexivity|constructor; [apply quad_regular|constructor]]|].
      constructor; [split; [reflexivity|constructor; [apply quad_regular|constructor]]|constructor]. }
    assert (ST : store_splines [[mkS obasis [0; 1; 1]]; [mkS obasis [1; 1; 0]]] [1; 1] None 2 = Some [r]).
    { unfold store_splines, store_insert. apply (concat_two _ _ _ _ _ 2%Z); auto. cbn [used_insert]. f_equal.
      rewrite (computed_first 2 _ _ _ _ 1); [reflexivity|apply quad_proper|apply quad_proper|lra|lra|lia| |].
      + intros d Hd. replace d with 0%nat by lia. rewrite A0, B0, same_equal. destruct (Req_EM_T 1 0); lra || reflexivity.
      + rewrite A1, B1. replace (2 * (1 - 1) / 1) with 0 by field. rewrite same_equal. destruct (Req_EM_T 0 0); lra || reflexivity. }
    exists [r]. split; [exact PS|]. split.
    { change (connections [[mkS obasis [0; 1; 1]]; [mkS obasis [1; 1; 0]]] [1; 1])
        with ((connection 2 (mkS obasis [0; 1; 1]) (mkS obasis [1; 1; 0]) 1 1 ++ []) ++ []).
      rewrite quad_connection. simpl. repeat constructor; lra. }
    split; [exact ST|]. split.
    { unfold component. cbn [map combine nth travelled]. destruct (Rle_dec 1 1); [exact A0|lra]. }
    rewrite (standstill_doubles 2 1 [mkS obasis [0; 1; 1]] [mkS obasis [1; 1; 0]] 1 1 [r] 0 1); auto; try lra; try lia.
    + cbn [nth]. rewrite quad_start, quad_end. ring.
    + apply (regular_proper _ _ _ PS).
    + cbn [nth]. rewrite A1. field.
    + cbn [nth]. rewrite B1. field.
Qed.

(** ** cubic G-code segments of equal duration *)
Definition cbasis : bbasis := mkB [0; 0; 0; 0; 1; 1; 1; 1] 3.
Lemma cube_regular : forall a b c d, regular_spline 3 (mkS cbasis [a; b; c; d]).
Proof.
  intros a b c d. split.
  - split; [split; [knots_ok|simpl; lia]|]. unfold clamped; simpl. repeat split; lra.
  - split; [reflexivity|]. split; [reflexivity|].
    intros x Hx i Hi [H1 _]. simpl in Hi. unfold cbasis in H1. simpl in H1.
    do 8 (destruct i as [|i]; [simpl in H1; lra|]). simpl in Hi. lia.
Qed.
Lemma cube_derivative : forall a b c d, derivative (mkS cbasis [a; b; c; d]) 1 = mkS obasis [3 * (b - a); 3 * (c - b); 3 * (d - c)].
Proof.
  intros a b c d. unfold derivative, obasis. simpl. f_equal. unfold deriv_step. simpl.
  apply f_equal2; [field|]. apply f_equal2; [field|]. apply f_equal2; [field|reflexivity].
Qed.
Lemma cube_second : forall a b c d, derivative (mkS cbasis [a; b; c; d]) 2
  = mkS lbasis [6 * (c - 2 * b + a); 6 * (d - 2 * c + b)].
Proof.
  intros a b c d. unfold derivative, lbasis. simpl. f_equal. unfold deriv_step. simpl.
  apply f_equal2; [field|]. apply f_equal2; [field|reflexivity].
Qed.
Lemma cube_start : forall a b c d, call (mkS cbasis [a; b; c; d]) 0 = a.
Proof.
  intros a b c d. destruct (cube_regular a b c d) as ((A & B & C & D) & E & _).
  pose proof (call_left_end (mkS cbasis [a; b; c; d]) A E) as H. simpl in H. rewrite H; auto.
  unfold dom_left; simpl; lra.
Qed.
Lemma cube_end : forall a b c d, call (mkS cbasis [a; b; c; d]) 1 = d.
Proof.
  intros a b c d. destruct (cube_regular a b c d) as ((A & B & C & D) & E & _).
  pose proof (call_right_end (mkS cbasis [a; b; c; d]) A E) as H.
  change (dom_right (sbasis (mkS cbasis [a; b; c; d]))) with 1 in H. simpl in H. rewrite H; auto. lra.
Qed.
Lemma cube_connection : forall a b c d a' b' c' d' T1 T2,
  connection 3 (mkS cbasis [a; b; c; d]) (mkS cbasis [a'; b'; c'; d']) T1 T2
  = [d - a'; 3 * (d - c) * T2 - 3 * (b' - a') * T1;
     6 * (d - 2 * c + b) * T2 ^ 2 - 6 * (c' - 2 * b' + a') * T1 ^ 2].
Proof.
  intros. unfold connection. simpl seq. cbn [map]. rewrite !cube_derivative, !cube_second.
  change (derivative (mkS cbasis [a; b; c; d]) 0) with (mkS cbasis [a; b; c; d]).
  change (derivative (mkS cbasis [a'; b'; c'; d']) 0) with (mkS cbasis [a'; b'; c'; d']).
  rewrite !evalspline_call by reflexivity. rewrite quad_start, quad_end, cube_start, cube_end.
  rewrite !line_call by lra. f_equal; [ring|]. f_equal; [ring|]. f_equal. ring.
Qed.

(** t^3 on [0, 2] in two halves *)
Definition cube_a : list bspline := [mkS cbasis [0; 0; 0; 1]].
Definition cube_b : list bspline := [mkS cbasis [1; 2; 4; 8]].
Lemma cubes_regular : regular_segments 3 1 [cube_a; cube_b].
Proof.
  constructor; [split; [reflexivity|constructor; [apply cube_regular|constructor]]|].
  constructor; [split; [reflexivity|constructor; [apply cube_regular|constructor]]|constructor].
Qed.

Theorem equal_cubes_refuted : exists rs,
  Forall (fun v => v = 0) (gcode_connections (gcode_continuity [cube_a; cube_b]) [cube_a; cube_b] [1; 1]) /\
  store_splines [cube_a; cube_b] [1; 1] (Some (gcode_continuity [cube_a; cube_b])) 3 = Some rs /\
  travelled (component 0 [cube_a; cube_b] [1; 1]) 0 1 = 1 /\ call (nth 0 rs no_spline) 1 = 2.
Proof.
  destruct (join_exists 1 (scale (mkS cbasis [0; 0; 0; 1]) 1 0) (mkS cbasis [1; 2; 4; 8]) 1 1 jb3) as [r J].
  - discriminate.
  - unfold jb3, cbasis. same_knots.
  - exact jb3_regular.
  - assert (ST : store_splines [cube_a; cube_b] [1; 1] (Some (gcode_continuity [cube_a; cube_b])) 3 = Some [r])
      by (apply (concat_two _ _ _ _ _ 1%Z); auto).
    exists [r]. split.
    { change (gcode_connections (gcode_continuity [cube_a; cube_b]) [cube_a; cube_b] [1; 1])
        with ((connection 3 (mkS cbasis [0; 0; 0; 1]) (mkS cbasis [1; 2; 4; 8]) 1 1 ++ []) ++ []).
      rewrite cube_connection. simpl. repeat constructor; lra. }
    split; [exact ST|]. split.
    { unfold component, cube_a, cube_b. cbn [map combine nth travelled]. destruct (Rle_dec 1 1); [|lra].
      unfold in_seconds. replace (1 / 1) with 1 by field.
      change (derivative (mkS cbasis [0; 0; 0; 1]) 0) with (mkS cbasis [0; 0; 0; 1]). rewrite cube_end. simpl. field. }
    rewrite (gcode_cubic_doubles 1 cube_a cube_b 1 1 [r] 0); auto; try lra.
    + unfold cube_a, cube_b. cbn [nth]. rewrite cube_start, cube_end. ring.
    + apply cubes_regular.
    + unfold before_joint, after_joint, cube_a, cube_b, cbasis. cbn [nth fst snd sbasis knots length Nat.sub]. ring.
Qed.

(** ** cubic segments of different duration: knots 0 0 0 0 1 3 3 3 3 *)
Definition jb4 : bbasis := mkB [0; 0; 0; 0; 1; 3; 3; 3; 3] 3.
Lemma jb4_sorted : nondecreasing (knots jb4).
Proof. knots_ok. Qed.
Lemma jb4_left : forall a b c d e x, 0 < x <= 1 ->
  call (mkS jb4 [a; b; c; d; e]) x
  = lerp x (lerp x (lerp x a b) (lerp (x / 3) b c)) (lerp (x / 3) (lerp (x / 3) b c) (lerp (x / 3) c d)).
Proof. intros a b c d e x Hx. unfold jb4, lerp. piece 3%nat; [field|apply jb4_sorted]. Qed.
Lemma jb4_right : forall a b c d e x, 1 < x <= 3 ->
  call (mkS jb4 [a; b; c; d; e]) x
  = lerp ((x - 1) / 2) (lerp (x / 3) (lerp (x / 3) b c) (lerp (x / 3) c d))
         (lerp ((x - 1) / 2) (lerp (x / 3) c d) (lerp ((x - 1) / 2) d e)).
Proof. intros a b c d e x Hx. unfold jb4, lerp. piece 4%nat; [field|apply jb4_sorted]. Qed.
Lemma jb4_sites : sites jb4 = [1 / 300; 1 / 3; 4 / 3; 7 / 3; 449 / 150].
Proof.
  unfold sites, greville, jb4, blen. cbn [knots degree length Nat.sub seq map fold_left]. unfold kn.
  cbn [knots nth Nat.add]. cbn [move_first]. unfold move_last. cbn [rev app]. simpl INR.
  repeat match goal with |- _ :: _ = _ :: _ => f_equal end; try reflexivity; field.
Qed.
Lemma jb4_regular : forall y, length y = blen jb4 -> (forall x, In x (sites jb4) -> call (mkS jb4 y) x = 0) ->
  y = repeat 0 (blen jb4).
Proof.
  intros y L H. change (blen jb4) with 5%nat in *. destruct y as [|a [|b [|c [|d [|e [|f y]]]]]]; try discriminate.
  rewrite jb4_sites in H.
  assert (H1 := H (1 / 300) ltac:(simpl; auto)). assert (H2 := H (1 / 3) ltac:(simpl; auto)).
  assert (H3 := H (4 / 3) ltac:(simpl; auto)). assert (H4 := H (7 / 3) ltac:(simpl; auto)).
  assert (H5 := H (449 / 150) ltac:(simpl; auto 6)).
  rewrite jb4_left in H1, H2 by lra. rewrite jb4_right in H3, H4, H5 by lra. unfold lerp in *.
  simpl. repeat f_equal; lra.
Qed.

(** t^3 on [0, 1] and on [1, 3] *)
Definition cube_c : list bspline := [mkS cbasis [1; 3; 9; 27]].
Lemma cubes_ac_regular : regular_segments 3 1 [cube_a; cube_c].
Proof.
  constructor; [split; [reflexivity|constructor; [apply cube_regular|constructor]]|].
  constructor; [split; [reflexivity|constructor; [apply cube_regular|constructor]]|constructor].
Qed.
Lemma cubes_ac_connected :
  Forall (fun v => v = 0) (gcode_connections (gcode_continuity [cube_a; cube_c]) [cube_a; cube_c] [1; 2]).
Proof.
  change (gcode_connections (gcode_continuity [cube_a; cube_c]) [cube_a; cube_c] [1; 2])
    with ((connection 3 (mkS cbasis [0; 0; 0; 1]) (mkS cbasis [1; 3; 9; 27]) 1 2 ++ []) ++ []).
  rewrite cube_connection. simpl. repeat constructor; lra.
Qed.
Lemma cubes_ac_uneven : uneven (component 0 [cube_a; cube_c] [1; 2]).
Proof.
  unfold component, cube_a, cube_c, cbasis. cbn [map combine nth uneven]. split; [|exact I].
  unfold before_joint, after_joint. cbn [nth fst snd sbasis knots length Nat.sub]. lra.
Qed.
Lemma cubes_ac_stored : exists rs,
  store_splines [cube_a; cube_c] [1; 2] (Some (gcode_continuity [cube_a; cube_c])) 3 = Some rs.
Proof.
  destruct (join_exists 1 (scale (mkS cbasis [0; 0; 0; 1]) 1 0) (mkS cbasis [1; 3; 9; 27]) 2 1 jb4) as [r J].
  - discriminate.
  - unfold jb4, cbasis. same_knots.
  - exact jb4_regular.
  - exists [r]. apply (concat_two _ _ _ _ _ 1%Z); auto.
Qed.

(** ** no knot kept: the second segment is ignored, the first one stretched *)
Lemma obasis_scaled : forall T, scale_basis obasis T 0 = mkB [0; 0; 0; T; T; T] 2.
Proof. intros T. unfold scale_basis, obasis. cbn [knots degree map]. f_equal. repeat match goal with |- _ :: _ = _ :: _ => f_equal end; try reflexivity; ring. Qed.
Lemma stretched_call : forall T a b c x, 0 < T -> 0 <= x <= T ->
  call (mkS (mkB [0; 0; 0; T; T; T] 2) [a; b; c]) x = (1 - x / T) ^ 2 * a + 2 * (x / T) * (1 - x / T) * b + (x / T) ^ 2 * c.
Proof.
  intros T a b c x HT Hx. rewrite <- obasis_scaled.
  change (mkS (scale_basis obasis T 0) [a; b; c]) with (scale (mkS obasis [a; b; c]) T 0).
  replace x with (x / T * T + 0) at 1 by (field; lra). rewrite scale_call by lra.
  rewrite oseg_call; [reflexivity|]. split; [apply Rmult_le_pos; [lra|left; apply Rinv_0_lt_compat; lra]|].
  apply (Rmult_le_reg_r T); [lra|]. replace (x / T * T) with x by (field; lra). lra.
Qed.
Lemma stretched_sites : forall T, sites (mkB [0; 0; 0; T; T; T] 2) = [T / 200; T / 2; 199 / 200 * T].
Proof.
  intros T. unfold sites, greville, blen. cbn [knots degree length Nat.sub seq map fold_left]. unfold kn.
  cbn [knots nth Nat.add]. cbn [move_first]. unfold move_last. cbn [rev app]. simpl INR.
  repeat match goal with |- _ :: _ = _ :: _ => f_equal end; try reflexivity; field.
Qed.
Lemma zero_basis : forall P s T1 T2, sbasis P = obasis -> sbasis s = obasis ->
  concat_basis 2 0 (scale P T1 0) s T2 = mkB [0; 0; 0; T2; T2; T2] 2.
Proof.
  intros P s T1 T2 E1 E2. unfold concat_basis, scale. cbn [sbasis]. rewrite E1, E2, obasis_scaled. cbn [knots].
  unfold head_knots, tail_knots, py_prefix, obasis. cbn [knots length]. cbv zeta. simpl. f_equal. repeat match goal with |- _ :: _ = _ :: _ => f_equal end; try reflexivity; ring.
Qed.
Theorem zero_insert_stretched : forall a b c s T1 T2 r, 0 < T2 <= T1 -> sbasis s = obasis -> sized s ->
  join 0 (scale (mkS obasis [a; b; c]) T1 0) s T2 T1 = Some r ->
  forall x, 0 <= x <= T1 + T2 -> call r x = call (mkS obasis [a; b; c]) (x / (T1 + T2) * (T2 / T1)).
Proof.
  intros a b c s T1 T2 r HT ES SS J x Hx. unfold join in J. cbv zeta in J.
  change (degree (sbasis (scale (mkS obasis [a; b; c]) T1 0))) with 2%nat in J.
  replace (0 =? Z.of_nat 2 + 1)%Z with false in J by reflexivity.
  rewrite zero_basis in J by auto. change (blen (mkB [0; 0; 0; T2; T2; T2] 2)) with 3%nat in J.
  destruct (gsolve 3 _) as [y|] eqn:G; [|discriminate]. injection J as <-.
  apply gsolve_spec in G.
  2:{ intros q I. unfold concat_system in I. apply in_map_iff in I. destruct I as (z & <- & _). cbn [fst]. apply blen_eval. }
  destruct G as [L G]. pose proof (proj2 (G y L) eq_refl) as H. clear G.
  destruct y as [|d [|e [|f [|g y]]]]; try discriminate. unfold concat_system in H. rewrite stretched_sites in H. cbn [map] in H.
  assert (OUT : forall z, z < T2 -> call (scale s T2 T1) z = 0).
  { intros z Hz. apply (clamped_outside _ T1 (T1 + T2)).
    - apply Q_clamped; [rewrite ES; apply obasis_clamped|lra].
    - apply scale_sized. exact SS.
    - lra. }
  assert (PV : forall z, 0 <= z < T2 -> call (mkS (mkB [0; 0; 0; T2; T2; T2] 2) [d; e; f]) z
      = call (scale (mkS obasis [a; b; c]) T1 0) z + call (scale s T2 T1) z ->
      (1 - z / T2) ^ 2 * d + 2 * (z / T2) * (1 - z / T2) * e + (z / T2) ^ 2 * f
      = (1 - z / T1) ^ 2 * a + 2 * (z / T1) * (1 - z / T1) * b + (z / T1) ^ 2 * c).
  { intros z Hz E. rewrite OUT, Rplus_0_r in E by lra. rewrite stretched_call in E by lra.
    rewrite E. unfold scale. cbn [sbasis coeffs]. rewrite obasis_scaled. apply stretched_call; lra. }
  inversion H as [|? ? H1 H']; subst x0 l. inversion H' as [|? ? H2 H'']; subst x0 l. inversion H'' as [|? ? H3 _]; subst x0 l.
  unfold holds_row in H1, H2, H3. cbn [fst snd] in H1, H2, H3.
  apply PV in H1; [|lra]. apply PV in H2; [|lra]. apply PV in H3; [|lra].
  assert (KB : mkB (head_knots 2 0 (knots (sbasis (scale (mkS obasis [a; b; c]) T1 0))) ++
      tail_knots 2 (knots (sbasis s)) T2 (last (knots (sbasis (scale (mkS obasis [a; b; c]) T1 0))) 0)) 2
      = mkB [0; 0; 0; T1 + T2; T1 + T2; T1 + T2] 2).
  { rewrite ES. unfold head_knots, tail_knots, py_prefix, obasis. cbn [scale scale_basis sbasis knots degree length map].
    simpl. f_equal. repeat match goal with |- _ :: _ = _ :: _ => f_equal end; try reflexivity; ring. }
  transitivity (call (mkS (mkB [0; 0; 0; T1 + T2; T1 + T2; T1 + T2] 2) [d; e; f]) x).
  { apply (f_equal (fun B => call (mkS B [d; e; f]) x)). exact KB. }
  rewrite stretched_call by lra.
  set (q := T2 / T1) in *. assert (Q0 : 0 < q) by (apply Rmult_lt_0_compat; [lra|apply Rinv_0_lt_compat; lra]).
  assert (Q1 : q <= 1) by (apply (Rmult_le_reg_r T1); [lra|]; unfold q; replace (T2 / T1 * T1) with T2 by (field; lra); lra).
  set (u := x / (T1 + T2)).
  assert (U : 0 <= u <= 1).
  { unfold u. split; [apply Rmult_le_pos; [lra|left; apply Rinv_0_lt_compat; lra]|].
    apply (Rmult_le_reg_r (T1 + T2)); [lra|]. replace (x / (T1 + T2) * (T1 + T2)) with x by (field; lra). lra. }
  rewrite oseg_call.
  2:{ split; [apply Rmult_le_pos; lra|]. apply Rle_trans with (1 * 1); [apply Rmult_le_compat; lra|lra]. }
  replace (T2 / 200 / T2) with (1 / 200) in H1 by (field; lra). replace (T2 / 200 / T1) with (q / 200) in H1 by (unfold q; field; lra).
  replace (T2 / 2 / T2) with (1 / 2) in H2 by (field; lra). replace (T2 / 2 / T1) with (q / 2) in H2 by (unfold q; field; lra).
  replace (199 / 200 * T2 / T2) with (199 / 200) in H3 by (field; lra).
  replace (199 / 200 * T2 / T1) with (199 / 200 * q) in H3 by (unfold q; field; lra).
  assert (Ed : d = a) by lra.
  assert (Ee : e = a + q * (b - a)) by lra.
  assert (Ef : f = (1 - q) ^ 2 * a + 2 * q * (1 - q) * b + q ^ 2 * c) by lra.
  rewrite Ed, Ee, Ef. ring.
Qed.

Lemma zero_kept_example : exists r, join 0 (scale (mkS obasis [- 1; - 2; - 4]) 2 0) (mkS obasis [- 4; - 5; - 8]) 1 2 = Some r.
Proof.
  apply (join_exists 0 (scale (mkS obasis [- 1; - 2; - 4]) 2 0) (mkS obasis [- 4; - 5; - 8]) 1 2 (mkB [0; 0; 0; 1; 1; 1] 2)).
  - discriminate.
  - apply zero_basis; reflexivity.
  - intros y L H. change (blen (mkB [0; 0; 0; 1; 1; 1] 2)) with 3%nat in *.
    destruct y as [|a [|b [|c [|d y]]]]; try discriminate. rewrite stretched_sites in H.
    assert (H1 := H (1 / 200) ltac:(simpl; auto)). assert (H2 := H (1 / 2) ltac:(simpl; auto)).
    assert (H3 := H (199 / 200 * 1) ltac:(simpl; auto)).
    rewrite stretched_call in H1, H2, H3 by lra. simpl. repeat f_equal; lra.
Qed.

(** ** negative coordinates: the comparison of values passes whatever they are *)
Theorem negative_refuted : exists sg1 sg2 rs, regular_segments 2 1 [sg1; sg2] /\
  Forall (fun v => v = 0) (connections [sg1; sg2] [2; 1]) /\
  store_splines [sg1; sg2] [2; 1] None 2 = Some rs /\
  travelled (component 0 [sg1; sg2] [2; 1]) 0 3 = - 8 /\ call (nth 0 rs no_spline) 3 = - 9 / 4.
Proof.
  exists [mkS obasis [- 1; - 2; - 4]], [mkS obasis [- 4; - 5; - 8]].
  destruct (quad_in_seconds (- 1) (- 2) (- 4) 2 ltac:(lra)) as (_ & A0 & _ & A1 & _ & A2).
  destruct (quad_in_seconds (- 4) (- 5) (- 8) 1 ltac:(lra)) as (B0 & B0' & B1 & _ & B2 & _).
  destruct zero_kept_example as [r J].
  assert (PS : regular_segments 2 1 [[mkS obasis [- 1; - 2; - 4]]; [mkS obasis [- 4; - 5; - 8]]]).
    { constructor; [split; [reflexivity|constructor; [apply quad_regular|constructor]]|].
      constructor; [split; [reflexivity|constructor; [apply quad_regular|constructor]]|constructor]. }
    exists [r]. split; [exact PS|]. split.
    { change (connections [[mkS obasis [- 1; - 2; - 4]]; [mkS obasis [- 4; - 5; - 8]]] [2; 1])
        with ((connection 2 (mkS obasis [- 1; - 2; - 4]) (mkS obasis [- 4; - 5; - 8]) 2 1 ++ []) ++ []).
      rewrite quad_connection. simpl. repeat constructor; lra. }
    split.
    { unfold store_splines, store_insert. apply (concat_two _ _ _ _ _ 0%Z); auto.
      cbn [used_insert]. f_equal. apply (computed_none 2); try apply quad_proper; try lra.
      intros d Hd. apply same_negative. destruct d as [|[|[|d]]]; [rewrite A0, B0|rewrite A1, B1|rewrite A2, B2|lia]; lra. }
    split.
    { unfold component. cbn [map combine nth travelled]. destruct (Rle_dec 3 2); [lra|].
      replace (3 - 2) with 1 by ring. exact B0'. }
    cbn [nth]. rewrite (zero_insert_stretched (- 1) (- 2) (- 4) (mkS obasis [- 4; - 5; - 8]) 2 1 r); auto; try lra; try reflexivity.
    replace (3 / (2 + 1) * (1 / 2)) with (1 / 2) by field. rewrite oseg_call by lra. field.
Qed.

(** ** sharing of the count *)
(** the count of the first joint is used at the second one *)
Theorem count_shared : forall n segs Ts m, used_insert n segs Ts = Some m ->
  n = None -> exists s1 s2 sg1 sg2 rest T1 T2 Ts', segs = (s1 :: sg1) :: (s2 :: sg2) :: rest /\ Ts = T1 :: T2 :: Ts' /\
  m = computed_insert (scale s1 T1 0) s2 T2 T1.
Proof.
  intros n segs Ts m U ->. destruct segs as [|[|s1 sg1] [|[|s2 sg2] rest]]; try discriminate;
    destruct Ts as [|T1 [|T2 Ts]]; try discriminate.
  cbn [used_insert] in U. injection U as <-. repeat eexists.
Qed.
