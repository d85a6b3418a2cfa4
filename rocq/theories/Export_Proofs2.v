(** Shifting the splines in the exported code. *)
From Coq Require Import Reals List Arith Bool String Lia Lra.
From Verif Require Import Export_Model Export_Spec Export_Proofs.
Import ListNotations.
Local Open Scope R_scope.
Local Notation length := List.length.

Lemma entry_loop : forall (row v : vec) off n a acc,
  (a + n <= length row)%nat -> (off + a + n <= length v)%nat ->
  for_loop n a (fun j acc => match nth_error row j, nth_error v (off + j) with
                             | Some c, Some x => Some (acc + c * x)
                             | _, _ => None end) acc
  = Some (acc + dotp (firstn n (skipn a row)) (firstn n (skipn (off + a) v))).
Proof.
  intros row v off n. induction n as [|n IH]; intros a acc H1 H2.
  - simpl. f_equal. ring.
  - cbn [for_loop]. rewrite !nth_error_some by lia. rewrite IH by lia.
    rewrite (skipn_nth_cons row a) by lia. rewrite (skipn_nth_cons v (off + a)) by lia.
    replace (off + Datatypes.S a)%nat with (Datatypes.S (off + a))%nat by lia.
    cbn [firstn dotp]. f_equal. ring.
Qed.

Lemma shift_entry_dot : forall row v off n, length row = n -> (off + n <= length v)%nat ->
  shift_entry row v off n = Some (dotp row (firstn n (skipn off v))).
Proof.
  intros row v off n L H. unfold shift_entry. rewrite entry_loop by lia.
  simpl skipn at 1. replace (off + 0)%nat with off by lia. rewrite <- L at 1. rewrite firstn_all.
  f_equal. ring.
Qed.

Lemma nth_error_row : forall (M : list vec) i, (i < length M)%nat -> nth_error M i = Some (nth i M []).
Proof.
  induction M as [|r M IH]; intros i H; [simpl in H; lia|]. destruct i as [|i]; [reflexivity|].
  simpl. apply IH. simpl in H. lia.
Qed.

Lemma skipn_row : forall (M : list vec) i, (i < length M)%nat -> skipn i M = nth i M [] :: skipn (S i) M.
Proof.
  induction M as [|r M IH]; intros i H; [simpl in H; lia|]. destruct i as [|i]; [reflexivity|].
  simpl. apply IH. simpl in H. lia.
Qed.

(** a loop writing the entries of M times the old block at pre *)
Lemma fill_loop : forall (M : list vec) (old : vec) off n k base a (mid pre post : vec),
  square n M -> (off + n <= length old)%nat ->
  length mid = k -> (a + k = n)%nat -> length pre = (base + a)%nat ->
  for_loop k a (fun i v => match nth_error M i with
                           | Some row => match shift_entry row old off n with
                                         | Some x => write v (base + i) x
                                         | None => None end
                           | None => None end) (pre ++ mid ++ post)
  = Some (pre ++ map (fun row => dotp row (firstn n (skipn off old))) (skipn a M) ++ post).
Proof.
  intros M old off n k. induction k as [|k IH]; intros base a mid pre post [LM SM] LO L A P.
  - destruct mid; [|discriminate]. rewrite (skipn_all2 M) by (unfold vec in *; lia). reflexivity.
  - destruct mid as [|y mid]; [discriminate|]. cbn [for_loop].
    rewrite nth_error_row by (unfold vec in *; lia).
    assert (LR : length (nth a M []) = n).
    { rewrite Forall_forall in SM. apply SM, nth_In. unfold vec in *. lia. }
    rewrite (shift_entry_dot _ _ _ _ LR LO). rewrite <- P.
    change (pre ++ (y :: mid) ++ post) with (pre ++ y :: (mid ++ post)). rewrite write_app.
    match goal with |- context [pre ++ ?z :: mid ++ post] =>
      replace (pre ++ z :: mid ++ post) with ((pre ++ [z]) ++ mid ++ post) by (rewrite <- app_assoc; reflexivity) end.
    rewrite IH; [|split; assumption|exact LO|simpl in L; lia|lia|rewrite app_length; simpl; lia].
    rewrite (skipn_row M a) by (unfold vec in *; lia). rewrite <- app_assoc. reflexivity.
Qed.

Lemma firstn_front : forall {A} (a b : list A) n, length a = n -> firstn n (a ++ b) = a.
Proof. intros A a b n <-. rewrite firstn_app, Nat.sub_diag, firstn_all. simpl. apply app_nil_r. Qed.

Lemma skipn_front : forall {A} (a b : list A) n, length a = n -> skipn n (a ++ b) = b.
Proof. intros A a b n <-. rewrite skipn_app, Nat.sub_diag, skipn_all. reflexivity. Qed.

Lemma column_shifted : forall M rows buf (pre c post : vec),
  square rows M -> (rows <= length buf)%nat -> length c = rows ->
  exists buf', length buf' = length buf /\
    shift_column M rows (length pre) (buf, pre ++ c ++ post) = Some (buf', pre ++ mat_vec M c ++ post).
Proof.
  intros M rows buf pre c post SQ LB LC.
  set (v := pre ++ c ++ post).
  assert (LV : (length pre + rows <= length v)%nat) by (unfold v; rewrite !app_length; lia).
  assert (BLK : firstn rows (skipn (length pre) v) = c).
  { unfold v. rewrite (skipn_front pre) by reflexivity. apply firstn_front. exact LC. }
  pose proof (fill_loop M v (length pre) rows rows 0 0 (firstn rows buf) [] (skipn rows buf) SQ LV
    ltac:(rewrite firstn_length; lia) ltac:(lia) eq_refl) as F.
  cbn [app] in F. rewrite firstn_skipn, BLK in F.
  change (map (fun row => dotp row c) (skipn 0 M)) with (mat_vec M c) in F.
  assert (LMV : length (mat_vec M c) = rows) by (unfold mat_vec; rewrite map_length; apply SQ).
  exists (mat_vec M c ++ skipn rows buf). split; [rewrite app_length, skipn_length; lia|].
  unfold shift_column. cbn [fst snd]. cbn [plus] in F. unfold vec in *. rewrite F.
  unfold v at 1.
  pose proof (copy_loop (mat_vec M c ++ skipn rows buf) (length pre) rows 0 c pre post LC
    ltac:(rewrite app_length; lia) ltac:(lia)) as G.
  unfold vec in G. rewrite G. simpl skipn. rewrite (firstn_front (mat_vec M c)) by exact LMV. reflexivity.
Qed.

Lemma columns_shifted : forall M rows cols a buf (v pre post : vec) base,
  square rows M -> (rows <= length buf)%nat -> length v = (rows * cols)%nat ->
  length pre = (base + a * rows)%nat ->
  exists buf', length buf' = length buf /\
    for_loop cols a (fun k st => shift_column M rows (base + k * rows) st) (buf, pre ++ v ++ post)
    = Some (buf', pre ++ List.concat (map (mat_vec M) (split_cols rows cols v)) ++ post).
Proof.
  intros M rows cols. induction cols as [|cols IH]; intros a buf v pre post base SQ LB LV LP.
  - exists buf. split; [reflexivity|]. destruct v; [reflexivity|]. rewrite Nat.mul_0_r in LV. discriminate.
  - cbn [for_loop split_cols map List.concat]. rewrite <- LP.
    assert (SPL : pre ++ v ++ post = pre ++ firstn rows v ++ (skipn rows v ++ post))
      by (rewrite (app_assoc (firstn rows v)), firstn_skipn; reflexivity).
    unfold vec in *. rewrite SPL.
    assert (L1 : length (firstn rows v) = rows) by (rewrite firstn_length; nia).
    destruct (column_shifted M rows buf pre (firstn rows v) (skipn rows v ++ post) SQ LB L1) as (b1 & B1 & E1).
    unfold vec in *. rewrite E1.
    assert (L2 : length (mat_vec M (firstn rows v)) = rows) by (unfold mat_vec; rewrite map_length; apply SQ).
    destruct (IH (S a) b1 (skipn rows v) (pre ++ mat_vec M (firstn rows v)) post base SQ ltac:(lia)
      ltac:(rewrite skipn_length; lia) ltac:(rewrite app_length; lia)) as (b2 & B2 & E2).
    exists b2. split; [lia|]. rewrite <- app_assoc in E2. unfold vec in *. rewrite E2.
    rewrite <- !app_assoc. reflexivity.
Qed.

Lemma split_length : forall M rows cols v, square rows M ->
  length (List.concat (map (mat_vec M) (split_cols rows cols v))) = (rows * cols)%nat.
Proof.
  intros M rows cols. induction cols as [|c IH]; intros v [LM SM]; [simpl; lia|].
  cbn [split_cols map List.concat]. rewrite app_length, IH by (split; assumption).
  unfold mat_vec. rewrite map_length. unfold vec in *. lia.
Qed.

(** ---- the constants ---- *)
Lemma tf_constant_keeps : forall ds u acc,
  (forall e, In e ds -> is_spline e -> upper (d_name e) = u -> d_init e = acc) ->
  tf_constant ds u acc = acc.
Proof.
  induction ds as [|d ds IH]; intros u acc H; [reflexivity|]. cbn [tf_constant].
  assert (E : match d_spline d, d_init d with
      | Some _, Some M => if String.eqb (upper (d_name d)) u then Some M else acc
      | _, _ => acc end = acc).
  { destruct (d_spline d) eqn:S; [|reflexivity]. destruct (d_init d) as [M|] eqn:I; [|reflexivity].
    destruct (String.eqb_spec (upper (d_name d)) u) as [Q|Q]; [|reflexivity].
    rewrite <- I. apply H; [left; reflexivity| |exact Q]. unfold is_spline. rewrite S. discriminate. }
  rewrite E. apply IH. intros e I. apply H. right. exact I.
Qed.

Lemma tf_constant_app : forall a b u acc, tf_constant (a ++ b) u acc = tf_constant b u (tf_constant a u acc).
Proof. induction a as [|d a IH]; intros b u acc; [reflexivity|]. cbn [app tf_constant]. apply IH. Qed.

Lemma splines_tf_own : forall ds d M, one_matrix ds -> In d ds -> is_spline d -> d_init d = Some M ->
  splines_tf ds (d_name d) = Some M.
Proof.
  intros ds d M OM I S E. unfold splines_tf.
  destruct (in_split _ _ I) as (pre & post & ->). rewrite tf_constant_app. cbn [tf_constant].
  unfold is_spline in S. destruct (d_spline d) as [n|] eqn:SP; [|contradiction]. rewrite E, String.eqb_refl.
  apply tf_constant_keeps. intros e IE SE U. rewrite <- E. apply OM; try assumption.
  - apply in_or_app. right. right. exact IE.
  - unfold is_spline. rewrite SP. discriminate.
Qed.

(** ---- the whole function ---- *)
Lemma no_spline_no_code : forall ds cnt n, (forall d, In d ds -> d_spline d = None) -> gen_shift cnt n ds = [].
Proof.
  induction ds as [|d ds IH]; intros cnt n H; [reflexivity|]. cbn [gen_shift].
  rewrite (H d (or_introl eq_refl)). apply IH. intros e I. apply H. right. exact I.
Qed.

Lemma no_spline_shifted : forall ds v, (forall d, In d ds -> d_spline d = None) -> length v = total ds ->
  shifted ds v = v.
Proof.
  induction ds as [|d ds IH]; intros v H L.
  - destruct v; [reflexivity|discriminate].
  - cbn [shifted]. rewrite (H d (or_introl eq_refl)). cbn [total fold_right] in L. fold (total ds) in L.
    rewrite IH; [apply firstn_skipn|intros e I; apply H; right; exact I|rewrite skipn_length; lia].
Qed.

Lemma columns_before_tail : forall d ds, columns_before (d :: ds) -> columns_before ds.
Proof.
  intros d ds H pre e post E S. specialize (H (d :: pre) e post ltac:(rewrite E; reflexivity) S).
  inversion H; assumption.
Qed.

Lemma run_shifts_app : forall tfs p q st,
  run_shifts tfs (p ++ q) st = match run_shifts tfs p st with Some st' => run_shifts tfs q st' | None => None end.
Proof.
  intros tfs p. induction p as [|s p IH]; intros q st; [reflexivity|]. cbn [app run_shifts].
  destruct (run_shift tfs s st); [apply IH|reflexivity].
Qed.

Lemma resize_length : forall n v, length (resize n v) = n.
Proof. intros n v. unfold resize. rewrite app_length, firstn_length, repeat_length. lia. Qed.

Lemma shifts_from : forall tfs ds pre v n buf,
  (forall d M, In d ds -> is_spline d -> d_init d = Some M -> tfs (d_name d) = Some M) ->
  Forall good_spline ds -> columns_before ds -> length v = total ds -> length buf = n ->
  exists buf', run_shifts tfs (gen_shift (length pre) n ds) (buf, pre ++ v) = Some (buf', pre ++ shifted ds v).
Proof.
  intros tfs ds. induction ds as [|d ds IH]; intros pre v n buf TF GS CB L LB.
  - exists buf. destruct v; [reflexivity|discriminate].
  - inversion GS as [|? ? G GS']; subst. cbn [total fold_right] in L. fold (total ds) in L.
    assert (TF' : forall e M, In e ds -> is_spline e -> d_init e = Some M -> tfs (d_name e) = Some M)
      by (intros e M I; apply TF; right; exact I).
    assert (NS : d_cols d <> 1%nat -> forall e, In e ds -> d_spline e = None).
    { intros C e I. destruct (d_spline e) as [m|] eqn:S; [|reflexivity]. exfalso. apply C.
      destruct (in_split _ _ I) as (p & q & E).
      assert (F : Forall (fun e => d_cols e = 1%nat) (d :: p)).
      { apply (CB (d :: p) e q); [rewrite E; reflexivity|]. unfold is_spline. rewrite S. discriminate. }
      inversion F; assumption. }
    cbn [gen_shift shifted].
    set (mid := firstn (d_size d) v). set (rest := skipn (d_size d) v).
    assert (LM : length mid = d_size d) by (unfold mid; rewrite firstn_length; lia).
    assert (LR : length rest = total ds) by (unfold rest; rewrite skipn_length; lia).
    destruct (d_spline d) as [m|] eqn:SP.
    + destruct (G m SP) as [-> (M & IM & SQ)].
      assert (TM : tfs (d_name d) = Some M)
        by (apply TF; [left; reflexivity|unfold is_spline; rewrite SP; discriminate|exact IM]).
      rewrite IM. set (n' := if (length buf <? d_rows d)%nat then d_rows d else length buf).
      assert (R : exists b1, length b1 = n' /\ (d_rows d <= n')%nat /\
         run_shifts tfs (if (length buf <? d_rows d)%nat then [TResize (d_rows d)] else []) (buf, pre ++ v)
         = Some (b1, pre ++ v)).
      { unfold n'. destruct (Nat.ltb_spec (length buf) (d_rows d)).
        - exists (resize (d_rows d) buf). split; [apply resize_length|]. split; [lia|reflexivity].
        - exists buf. split; [reflexivity|]. split; [lia|reflexivity]. }
      destruct R as (b1 & L1 & L2 & E1).
      rewrite run_shifts_app. unfold vec in *. rewrite E1. cbn [run_shifts run_shift]. rewrite TM.
      destruct (columns_shifted M (d_rows d) (d_cols d) 0 b1 mid pre rest (length pre) SQ ltac:(lia)
        LM ltac:(lia)) as (b2 & L3 & E2).
      assert (MV : mid ++ rest = v) by apply firstn_skipn.
      rewrite MV in E2. unfold vec in *. rewrite E2.
      set (new := List.concat _) in *.
      assert (LN : length new = d_size d).
      { exact (split_length M (d_rows d) (d_cols d) mid SQ). }
      destruct (Nat.eq_dec (d_cols d) 1) as [C|C].
      * rewrite app_assoc.
        replace (length pre + d_rows d)%nat with (length (pre ++ new))
          by (rewrite app_length, LN; unfold d_size; rewrite C; lia).
        destruct (IH (pre ++ new) rest n' b2 TF' GS' (columns_before_tail _ _ CB) LR ltac:(lia)) as (b3 & E3).
        exists b3. unfold vec in *. rewrite E3, <- app_assoc. reflexivity.
      * rewrite no_spline_no_code by exact (NS C). rewrite no_spline_shifted; [|exact (NS C)|exact LR].
        exists b2. reflexivity.
    + destruct (Nat.eq_dec (d_cols d) 1) as [C|C].
      * replace (length pre + d_rows d)%nat with (length (pre ++ mid))
          by (rewrite app_length, LM; unfold d_size; rewrite C; lia).
        destruct (IH (pre ++ mid) rest (length buf) buf TF' GS' (columns_before_tail _ _ CB) LR eq_refl) as (b3 & E3).
        exists b3. rewrite <- !app_assoc in E3.
        assert (MV : mid ++ rest = v) by apply firstn_skipn. rewrite MV in E3. exact E3.
      * rewrite no_spline_no_code by exact (NS C). rewrite no_spline_shifted; [|exact (NS C)|exact LR].
        exists buf. unfold mid, rest. rewrite firstn_skipn. reflexivity.
Qed.

Theorem transform_right : forall ds len_veh v,
  Forall good_spline ds -> one_matrix ds -> columns_before ds -> length v = total ds ->
  transformSplines ds len_veh v = Some (shifted ds v).
Proof.
  intros ds n v GS OM CB L. unfold transformSplines.
  destruct (shifts_from (splines_tf ds) ds [] v n (repeat 0 n)
    ltac:(intros d M I S E; apply (splines_tf_own ds d M OM I S E)) GS CB L (repeat_length _ _)) as (b & E).
  cbn [app List.length] in E. unfold vec in *. rewrite E. reflexivity.
Qed.

(** number of rows declared before *)
Definition rows_before (ds : list decl) : nat := fold_right (fun d n => (d_rows d + n)%nat) 0%nat ds.

Lemma gen_shift_app : forall a b cnt n, exists n' p,
  gen_shift cnt n (a ++ b) = p ++ gen_shift (cnt + rows_before a) n' b.
Proof.
  induction a as [|d a IH]; intros b cnt n.
  - exists n, []. simpl. rewrite Nat.add_0_r. reflexivity.
  - cbn [app gen_shift rows_before fold_right]. fold (rows_before a).
    destruct (d_spline d) as [m|].
    + destruct (IH b (cnt + d_rows d)%nat (if (n <? m)%nat then m else n)) as (n' & p & E).
      exists n'. eexists. rewrite E, Nat.add_assoc. rewrite app_comm_cons, app_assoc. reflexivity.
    + destruct (IH b (cnt + d_rows d)%nat n) as (n' & p & E).
      exists n', p. rewrite E, Nat.add_assoc. reflexivity.
Qed.

(** the position the shift code uses for a spline *)
Theorem emitted_position : forall pre d post n, is_spline d ->
  In (TShift (d_cols d) (d_rows d) (rows_before pre) (d_name d)) (gen_shift 0 n (pre ++ d :: post)).
Proof.
  intros pre d post n S. destruct (gen_shift_app pre (d :: post) 0 n) as (n' & p & ->).
  apply in_or_app. right. cbn [gen_shift]. unfold is_spline in S.
  destruct (d_spline d) as [m|]; [|contradiction]. apply in_or_app. right. left. reflexivity.
Qed.

(** it is the position of the variable exactly when all variables before are
    single columns *)
Theorem position_right : forall pre, Forall (fun e => 0 < d_rows e /\ 0 < d_cols e)%nat pre ->
  rows_before pre = total pre <-> Forall (fun e => d_cols e = 1%nat) pre.
Proof.
  intros pre H.
  assert (LE : (rows_before pre <= total pre)%nat).
  { induction H as [|d pre [A B] H IH]; [simpl; lia|]. cbn [rows_before total fold_right].
    fold (rows_before pre) (total pre). unfold d_size. nia. }
  split.
  - induction H as [|d pre [A B] H IH]; intro E; [constructor|].
    cbn [rows_before total fold_right] in E, LE. fold (rows_before pre) (total pre) in E, LE. unfold d_size in E, LE.
    assert (LE' : (rows_before pre <= total pre)%nat).
    { clear - H. induction H as [|d pre [A B] H IH]; [simpl; lia|]. cbn [rows_before total fold_right].
      fold (rows_before pre) (total pre). unfold d_size. nia. }
    assert (C : d_cols d = 1%nat) by nia.
    constructor; [exact C|]. apply IH; [exact LE'|]. rewrite C in E. lia.
  - intro F. clear LE H. induction F as [|d pre C F IH]; [reflexivity|].
    cbn [rows_before total fold_right]. fold (rows_before pre) (total pre). unfold d_size. rewrite C. lia.
Qed.

Definition swap2 : list vec := [[0; 1]; [1; 0]].
Definition veh2 : decl := mkD "vehicle0" "splines_seg0" 2 2 (Some 2%nat) (Some swap2).
Definition plane2 : decl := mkD "vehicle0" "b" 2 1 (Some 2%nat) (Some swap2).

(** two position splines before a hyperplane: the hyperplane is not shifted
    and the second position spline is shifted twice *)
Theorem two_columns_refuted : exists ds v w,
  Forall good_spline ds /\ one_matrix ds /\ length v = total ds /\
  transformSplines ds 2 v = Some w /\ w <> shifted ds v /\
  shifted ds v = [2; 1; 4; 3; 6; 5] /\ w = [2; 1; 3; 4; 5; 6].
Proof.
  exists [veh2; plane2], [1; 2; 3; 4; 5; 6], [2; 1; 3; 4; 5; 6].
  assert (SH : shifted [veh2; plane2] [1; 2; 3; 4; 5; 6] = [2; 1; 4; 3; 6; 5]).
  { cbn. repeat match goal with |- _ :: _ = _ :: _ => f_equal end; ring. }
  split.
  { constructor; [|constructor; [|constructor]]; intros n E; injection E as <-; (split; [reflexivity|]);
      exists swap2; (split; [reflexivity|]); (split; [reflexivity|]); repeat constructor. }
  split; [intros d e [<-|[<-|[]]] [<-|[<-|[]]] _ _ _; reflexivity|].
  split; [reflexivity|]. split.
  { unfold transformSplines.
    assert (T1 : splines_tf [veh2; plane2] (d_name veh2) = Some swap2) by reflexivity.
    assert (T2 : splines_tf [veh2; plane2] (d_name plane2) = Some swap2) by reflexivity.
    revert T1 T2. generalize (splines_tf [veh2; plane2]). intros tfs T1 T2.
    cbn in T1, T2 |- *. rewrite T1. cbn. rewrite T2. cbn. f_equal.
    repeat match goal with |- _ :: _ = _ :: _ => f_equal end; ring. }
  split; [|split; [exact SH|reflexivity]].
  rewrite SH. intro H. injection H as H. lra.
Qed.

(** splines of two children with one name: the later matrix is used for both *)
Theorem shared_name_refuted : exists ds v w,
  Forall good_spline ds /\ columns_before ds /\ length v = total ds /\
  transformSplines ds 2 v = Some w /\ w <> shifted ds v.
Proof.
  exists [mkD "veh0" "a" 2 1 (Some 2%nat) (Some swap2); mkD "veh1" "a" 2 1 (Some 2%nat) (Some [[1; 0]; [0; 1]])],
    [1; 2; 3; 4], [1; 2; 3; 4].
  split.
  { constructor; [|constructor; [|constructor]]; intros n E; injection E as <-; (split; [reflexivity|]);
      eexists; (split; [reflexivity|]); (split; [reflexivity|]); repeat constructor. }
  split.
  { intros pre d post E _. destruct pre as [|x [|y [|]]]; cbn [app] in E.
    - constructor.
    - injection E as <- _. constructor; [reflexivity|constructor].
    - injection E as <- <- E. destruct post; discriminate.
    - injection E as <- <- E. discriminate. }
  split; [reflexivity|]. split.
  { unfold transformSplines. set (ds := [_; _]).
    assert (T1 : splines_tf ds "a" = Some [[1; 0]; [0; 1]]) by reflexivity.
    revert T1. generalize (splines_tf ds). intros tfs T1.
    cbn. rewrite T1. cbn. f_equal.
    repeat match goal with |- _ :: _ = _ :: _ => f_equal end; ring. }
  cbn. intro H. injection H as H _. lra.
Qed.
