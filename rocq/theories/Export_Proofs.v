(** Parameter and variable vectors of the exported code. *)
From Coq Require Import Reals List Arith Bool String Lia Lra.
From Verif Require Import Export_Model Export_Spec.
Import ListNotations.
Local Open Scope R_scope.
Local Notation length := List.length.

Lemma write_app : forall {A} (a b : list A) y x, write (a ++ y :: b) (length a) x = Some (a ++ x :: b).
Proof.
  intros A a b y x. unfold write.
  replace (length a <? length (a ++ y :: b))%nat with true
    by (symmetry; apply Nat.ltb_lt; rewrite app_length; simpl; lia).
  rewrite firstn_app, Nat.sub_diag, firstn_all. simpl firstn. rewrite app_nil_r.
  replace (S (length a)) with (length (a ++ [y])) by (rewrite app_length; simpl; lia).
  replace (a ++ y :: b) with ((a ++ [y]) ++ b) by (rewrite <- app_assoc; reflexivity).
  rewrite skipn_app, skipn_all, Nat.sub_diag. reflexivity.
Qed.

Lemma skipn_nth_cons : forall (src : vec) a, (a < length src)%nat ->
  skipn a src = nth a src 0 :: skipn (S a) src.
Proof.
  induction src as [|y src IH]; intros a H; [simpl in H; lia|].
  destruct a as [|a]; [reflexivity|]. simpl. apply IH. simpl in H. lia.
Qed.

Lemma skipn_skipn : forall {A} n m (l : list A), skipn n (skipn m l) = skipn (m + n) l.
Proof.
  intros A n m. induction m as [|m IH]; intro l; [reflexivity|].
  destruct l as [|x l]; [simpl; destruct n; reflexivity|]. simpl. apply IH.
Qed.

Lemma nth_error_some : forall (src : vec) a, (a < length src)%nat -> nth_error src a = Some (nth a src 0).
Proof.
  induction src as [|y src IH]; intros a H; [simpl in H; lia|].
  destruct a as [|a]; [reflexivity|]. simpl. apply IH. simpl in H. lia.
Qed.

Lemma copy_loop : forall (src : vec) cnt n a (mid pre post : vec),
  length mid = n -> (a + n <= length src)%nat -> length pre = (cnt + a)%nat ->
  for_loop n a (fun i v => match nth_error src i with
                           | Some x => write v (cnt + i) x
                           | None => None end) (pre ++ mid ++ post)
  = Some (pre ++ firstn n (skipn a src) ++ post).
Proof.
  intros src cnt n. induction n as [|n IH]; intros a mid pre post L S P.
  - destruct mid; [reflexivity|discriminate].
  - destruct mid as [|y mid]; [discriminate|]. cbn [for_loop].
    rewrite nth_error_some by lia. rewrite <- P.
    change (pre ++ (y :: mid) ++ post) with (pre ++ y :: (mid ++ post)).
    rewrite write_app.
    replace (pre ++ nth a src 0 :: mid ++ post) with ((pre ++ [nth a src 0]) ++ mid ++ post)
      by (rewrite <- app_assoc; reflexivity).
    rewrite IH; [|simpl in L; lia|lia|rewrite app_length; simpl; lia].
    rewrite (skipn_nth_cons src a) by lia. rewrite <- app_assoc. reflexivity.
Qed.

Lemma copy_statement : forall m d x cnt pre mid post,
  plain d -> entry m d = Some x -> (d_size d <= length x)%nat ->
  length pre = cnt -> length mid = d_size d ->
  run_copy m (if (1 <? d_rows d)%nat then CLoop (d_size d) cnt (d_label d) (d_name d)
              else COne cnt (d_label d) (d_name d)) (pre ++ mid ++ post)
  = Some (pre ++ firstn (d_size d) x ++ post).
Proof.
  intros m d x cnt pre mid post P E S L M. unfold entry in E.
  destruct (Nat.ltb_spec 1 (d_rows d)) as [R|R]; cbn [run_copy]; rewrite E.
  - rewrite (copy_loop x cnt (d_size d) 0 mid pre post M); [reflexivity|lia|lia].
  - destruct P as [P|[P Q]]; [lia|].
    assert (D : d_size d = 1%nat) by (unfold d_size; rewrite P, Q; reflexivity).
    rewrite D in *. destruct x as [|a x]; [simpl in S; lia|].
    destruct mid as [|y [|? ?]]; try discriminate.
    change (pre ++ [y] ++ post) with (pre ++ y :: post). rewrite <- L, write_app. reflexivity.
Qed.

Lemma parameters_from : forall m ds pre old,
  Forall plain ds -> Forall (present m) ds -> length old = total ds ->
  run_list (run_copy m) (gen_copy (length pre) ds) (pre ++ old)
  = Some (pre ++ List.concat (map (value m) ds)).
Proof.
  intros m ds. induction ds as [|d ds IH]; intros pre old PL PR L.
  - destruct old; [reflexivity|discriminate].
  - inversion PL; subst. inversion PR as [|? ? [x [E S]]]; subst. cbn [total fold_right] in L.
    fold (total ds) in L. cbn [gen_copy run_list].
    rewrite <- (firstn_skipn (d_size d) old).
    rewrite (copy_statement m d x (length pre) pre (firstn (d_size d) old) (skipn (d_size d) old));
      [|assumption|assumption|assumption|reflexivity|rewrite firstn_length; lia].
    replace (length pre + d_size d)%nat with (length (pre ++ firstn (d_size d) x))
      by (rewrite app_length, firstn_length; lia).
    rewrite app_assoc. rewrite IH; [|assumption|assumption|rewrite skipn_length; lia].
    rewrite <- app_assoc. cbn [map List.concat]. unfold value at 2. rewrite E. reflexivity.
Qed.

Theorem parameter_vector : forall ds m v,
  Forall plain ds -> Forall (present m) ds -> length v = total ds ->
  getParameterVector ds m v = Some (List.concat (map (value m) ds)).
Proof. intros ds m v P Q L. exact (parameters_from m ds [] v P Q L). Qed.

Lemma total_app : forall a b, total (a ++ b) = (total a + total b)%nat.
Proof. induction a as [|d a IH]; intro b; simpl; [reflexivity|]. rewrite IH. lia. Qed.

Lemma values_length : forall m ds, Forall (present m) ds ->
  length (List.concat (map (value m) ds)) = total ds.
Proof.
  intros m ds. induction ds as [|d ds IH]; intro P; [reflexivity|].
  inversion P as [|? ? [x [E S]]]; subst. cbn [map List.concat total fold_right]. fold (total ds).
  rewrite app_length, IH by assumption. unfold value. rewrite E, firstn_length. lia.
Qed.

(** each declaration occupies its own positions: d starts at the total size of
    the declarations before it *)
Theorem parameter_position : forall pre d post m v w,
  Forall plain (pre ++ d :: post) -> Forall (present m) (pre ++ d :: post) ->
  length v = total (pre ++ d :: post) ->
  getParameterVector (pre ++ d :: post) m v = Some w ->
  length w = length v /\ firstn (d_size d) (skipn (total pre) w) = value m d.
Proof.
  intros pre d post m v w P Q L E. rewrite parameter_vector in E by assumption.
  injection E as <-. split; [rewrite values_length by assumption; lia|].
  apply Forall_app in Q. destruct Q as [Q1 Q2]. inversion Q2 as [|? ? [x [Ex Sx]] Q3]; subst.
  rewrite map_app, concat_app. cbn [map List.concat].
  replace (total pre) with (length (List.concat (map (value m) pre))) by (apply values_length; assumption).
  rewrite skipn_app, skipn_all, Nat.sub_diag. simpl skipn. simpl app.
  assert (LV : length (value m d) = d_size d) by (unfold value; rewrite Ex, firstn_length; lia).
  rewrite <- LV at 1. rewrite firstn_app, Nat.sub_diag, firstn_all. simpl. apply app_nil_r.
Qed.

Theorem row_parameter_refuted : exists ds m v w,
  Forall (present m) ds /\ length v = total ds /\
  getParameterVector ds m v = Some w /\ w <> List.concat (map (value m) ds).
Proof.
  exists [mkD "p" "row" 1 2 None None], (fun _ _ => Some [5; 7]), [0; 0], [5; 0].
  split; [constructor; [exists [5; 7]; split; [reflexivity|unfold d_size; simpl; lia]|constructor]|].
  split; [reflexivity|]. split; [reflexivity|].
  intro H. cbn in H. injection H as H. lra.
Qed.

(** ---- variables ---- *)
Lemma variables_from : forall m ds pre old,
  Forall plain ds -> (forall d x, In d ds -> entry m d = Some x -> (d_size d <= length x)%nat) ->
  length old = total ds ->
  run_list (run_guarded m) (gen_copy (length pre) ds) (pre ++ old) = Some (pre ++ merged m ds old).
Proof.
  intros m ds. induction ds as [|d ds IH]; intros pre old PL PR L.
  - destruct old; [reflexivity|discriminate].
  - inversion PL; subst. cbn [total fold_right] in L. fold (total ds) in L. cbn [gen_copy run_list].
    assert (ST : run_guarded m (if (1 <? d_rows d)%nat then CLoop (d_size d) (length pre) (d_label d) (d_name d)
              else COne (length pre) (d_label d) (d_name d)) (pre ++ old)
      = Some (pre ++ match entry m d with Some x => firstn (d_size d) x | None => firstn (d_size d) old end
                  ++ skipn (d_size d) old)).
    { destruct (entry m d) as [x|] eqn:E.
      - transitivity (run_copy m (if (1 <? d_rows d)%nat then CLoop (d_size d) (length pre) (d_label d) (d_name d)
              else COne (length pre) (d_label d) (d_name d)) (pre ++ old)).
        + unfold entry in E. unfold run_guarded. destruct (1 <? d_rows d)%nat; rewrite E; reflexivity.
        + rewrite <- (firstn_skipn (d_size d) old) at 1.
          apply copy_statement; [assumption|exact E|apply (PR d); [left; reflexivity|exact E]|reflexivity|].
          rewrite firstn_length. lia.
      - unfold entry in E. unfold run_guarded. rewrite firstn_skipn.
        destruct (1 <? d_rows d)%nat; rewrite E; reflexivity. }
    rewrite ST. rewrite app_assoc.
    assert (LS : length (match entry m d with Some x => firstn (d_size d) x | None => firstn (d_size d) old end) = d_size d).
    { destruct (entry m d) as [x|] eqn:E; rewrite firstn_length; [|lia].
      specialize (PR d x (or_introl eq_refl) E). lia. }
    match goal with |- run_list _ _ ((pre ++ ?z) ++ _) = _ =>
      replace (length pre + d_size d)%nat with (length (pre ++ z)) by (rewrite app_length; lia) end.
    rewrite IH; [|assumption|intros e y I; apply PR; right; exact I|rewrite skipn_length; lia].
    rewrite <- app_assoc. reflexivity.
Qed.

Theorem variable_vector : forall ds m v,
  Forall plain ds -> (forall d x, In d ds -> entry m d = Some x -> (d_size d <= length x)%nat) ->
  length v = total ds ->
  getVariableVector ds m v = Some (merged m ds v).
Proof. intros ds m v P Q L. exact (variables_from m ds [] v P Q L). Qed.

Lemma merged_all : forall m ds v, Forall (present m) ds -> merged m ds v = List.concat (map (value m) ds).
Proof.
  intros m ds. induction ds as [|d ds IH]; intros v P; [reflexivity|].
  inversion P as [|? ? [x [E S]]]; subst. cbn [merged map List.concat]. rewrite IH by assumption.
  unfold value at 2. rewrite E. reflexivity.
Qed.

Lemma merged_none : forall m ds v, (forall d, In d ds -> entry m d = None) -> length v = total ds ->
  merged m ds v = v.
Proof.
  intros m ds. induction ds as [|d ds IH]; intros v P L.
  - destruct v; [reflexivity|discriminate].
  - cbn [merged]. rewrite (P d (or_introl eq_refl)). cbn [total fold_right] in L. fold (total ds) in L.
    rewrite IH; [apply firstn_skipn|intros e I; apply P; right; exact I|rewrite skipn_length; lia].
Qed.

Lemma merged_app : forall m a b v, length v = total (a ++ b) ->
  merged m (a ++ b) v = merged m a (firstn (total a) v) ++ merged m b (skipn (total a) v).
Proof.
  intros m a. induction a as [|d a IH]; intros b v L; [reflexivity|].
  rewrite total_app in L. cbn [total fold_right] in L |- *. fold (total a) in L |- *.
  cbn [app merged]. rewrite IH by (rewrite skipn_length, total_app; lia).
  rewrite <- app_assoc. f_equal.
  - destruct (entry m d); [reflexivity|]. rewrite firstn_firstn. f_equal. lia.
  - f_equal; [f_equal; rewrite skipn_firstn_comm; f_equal; lia|].
    f_equal. rewrite skipn_skipn. reflexivity.
Qed.

(** initVariables replaces the splines of the vehicle and leaves all other
    variables as they are *)
Theorem init_variables : forall pre d post cols v,
  Forall plain (pre ++ d :: post) -> length v = total (pre ++ d :: post) ->
  d_name d = "splines_seg0"%string ->
  (forall e, In e (pre ++ post) -> key e <> key d) ->
  length (List.concat cols) = d_size d ->
  initVariables (pre ++ d :: post) (d_label d) cols v
  = Some (firstn (total pre) v ++ List.concat cols ++ skipn (total pre + d_size d) v).
Proof.
  intros pre d post cols v P L N K C. unfold initVariables.
  set (m := set_dict _ _ _ _).
  assert (E : entry m d = Some (List.concat cols)).
  { unfold entry, m, set_dict. rewrite N, !String.eqb_refl. reflexivity. }
  assert (O : forall e, In e (pre ++ post) -> entry m e = None).
  { intros e I. unfold entry, m, set_dict.
    destruct (String.eqb_spec (d_label d) (d_label e)) as [A|A]; [|reflexivity].
    destruct (String.eqb_spec "splines_seg0" (d_name e)) as [B|B]; [|reflexivity].
    exfalso. apply (K e I). unfold key. rewrite <- A, <- B, N. reflexivity. }
  rewrite variable_vector; [|exact P| |exact L].
  - f_equal. rewrite merged_app by exact L. rewrite total_app in L. cbn [total fold_right] in L. fold (total post) in L.
    rewrite merged_none; [|intros e I; apply O, in_or_app; left; exact I|rewrite firstn_length; lia].
    f_equal. cbn [merged]. rewrite E. f_equal; [rewrite <- C; apply firstn_all|].
    rewrite merged_none; [|intros e I; apply O, in_or_app; right; exact I|rewrite !skipn_length; lia].
    rewrite skipn_skipn. reflexivity.
  - intros e x I X. apply in_app_or in I.
    destruct I as [I|[<-|I]].
    + rewrite O in X by (apply in_or_app; left; exact I). discriminate.
    + rewrite E in X. injection X as <-. lia.
    + rewrite O in X by (apply in_or_app; right; exact I). discriminate.
Qed.

(** ---- reading the variables back ---- *)
Lemma read_loop : forall (v : vec) cnt n a (mid pre : vec),
  length mid = n -> (cnt + a + n <= length v)%nat -> length pre = a ->
  for_loop n a (fun i w => match nth_error v (cnt + i) with
                           | Some x => write w i x
                           | None => None end) (pre ++ mid)
  = Some (pre ++ firstn n (skipn (cnt + a) v)).
Proof.
  intros v cnt n. induction n as [|n IH]; intros a mid pre L S P.
  - destruct mid; [reflexivity|discriminate].
  - destruct mid as [|y mid]; [discriminate|]. cbn [for_loop].
    rewrite nth_error_some by lia. subst a. rewrite write_app.
    replace (pre ++ nth (cnt + length pre) v 0 :: mid) with ((pre ++ [nth (cnt + length pre) v 0]) ++ mid)
      by (rewrite <- app_assoc; reflexivity).
    rewrite IH; [|simpl in L; lia|lia|rewrite app_length; simpl; lia].
    rewrite (skipn_nth_cons v (cnt + length pre)) by lia. rewrite <- app_assoc.
    replace (cnt + Datatypes.S (length pre))%nat with (Datatypes.S (cnt + length pre))%nat by lia. reflexivity.
Qed.

Lemma dicts_from : forall v ds cnt m,
  Forall (fun d => 1 < d_rows d)%nat ds -> (cnt + total ds <= length v)%nat -> NoDup (map key ds) ->
  exists m', run_dicts v (gen_dict cnt ds) m = Some m' /\
    (forall pre d post, ds = pre ++ d :: post ->
       m' (d_label d) (d_name d) = Some (firstn (d_size d) (skipn (cnt + total pre) v))) /\
    (forall l n, ~ In (l, n) (map key ds) -> m' l n = m l n).
Proof.
  intros v ds. induction ds as [|d ds IH]; intros cnt m P L ND.
  - exists m. split; [reflexivity|]. split; [|reflexivity].
    intros pre d post H. destruct pre; discriminate.
  - inversion P as [|? ? R P']; subst. inversion ND as [|? ? NI ND']; subst.
    cbn [total fold_right] in L. fold (total ds) in L. cbn [gen_dict run_dicts].
    destruct (Nat.ltb_spec 1 (d_rows d)) as [_|]; [|lia]. cbn [run_dict].
    pose proof (read_loop v cnt (d_size d) 0 (repeat 0 (d_size d)) [] (repeat_length _ _) ltac:(lia) eq_refl) as E.
    cbn [app] in E. rewrite E. clear E.
    destruct (IH (cnt + d_size d)%nat
      (set_dict m (d_label d) (d_name d) (firstn (d_size d) (skipn (cnt + 0) v))) P' ltac:(lia) ND') as (m' & E & A & B).
    exists m'. split; [exact E|]. split.
    + intros pre d' post H. destruct pre as [|e pre]; cbn [app] in H; injection H as <- H.
      * rewrite B by exact NI. unfold set_dict. rewrite !String.eqb_refl. simpl total.
        reflexivity.
      * rewrite (A pre d' post H). cbn [total fold_right]. fold (total pre). do 3 f_equal. lia.
    + intros l n NIN. rewrite B by (intro H; apply NIN; right; exact H).
      unfold set_dict. destruct (String.eqb_spec (d_label d) l) as [A1|A1]; [|reflexivity].
      destruct (String.eqb_spec (d_name d) n) as [A2|A2]; [|reflexivity].
      exfalso. apply NIN. left. unfold key. rewrite A1, A2. reflexivity.
Qed.

Theorem variable_dict : forall ds v m,
  Forall (fun d => 1 < d_rows d)%nat ds -> length v = total ds -> NoDup (map key ds) ->
  exists m', getVariableDict ds v m = Some m' /\
    (forall pre d post, ds = pre ++ d :: post -> entry m' d = Some (firstn (d_size d) (skipn (total pre) v))) /\
    (forall l n, ~ In (l, n) (map key ds) -> m' l n = m l n).
Proof.
  intros ds v m P L ND. destruct (dicts_from v ds 0 m P ltac:(lia) ND) as (m' & E & A & B).
  exists m'. split; [exact E|]. split; [|exact B]. intros pre d post H. exact (A pre d post H).
Qed.

(** what was put in comes out again *)
Theorem round_trip : forall ds m v,
  Forall (fun d => 1 < d_rows d)%nat ds -> Forall (present m) ds -> length v = total ds -> NoDup (map key ds) ->
  exists w m', getVariableVector ds m v = Some w /\ getVariableDict ds w (fun _ _ => None) = Some m' /\
    forall d, In d ds -> entry m' d = Some (value m d).
Proof.
  intros ds m v P Q L ND. exists (List.concat (map (value m) ds)).
  assert (PL : Forall plain ds) by (eapply Forall_impl; [|exact P]; intros d H; left; exact H).
  destruct (variable_dict ds (List.concat (map (value m) ds)) (fun _ _ => None) P
    (values_length m ds Q) ND) as (m' & E & A & _).
  exists m'. split; [|split; [exact E|]].
  - rewrite variable_vector; [|exact PL| |exact L].
    + f_equal. apply merged_all. exact Q.
    + intros d x I X. rewrite Forall_forall in Q. destruct (Q d I) as [y [Y Z]]. rewrite X in Y. injection Y as <-. exact Z.
  - intros d I. apply in_split in I. destruct I as (pre & post & ->).
    rewrite (A pre d post eq_refl). f_equal.
    assert (PV : getParameterVector (pre ++ d :: post) m v = Some (List.concat (map (value m) (pre ++ d :: post))))
      by (apply parameter_vector; assumption).
    exact (proj2 (parameter_position pre d post m v _ PL Q L PV)).
Qed.

(** a single number among the variables makes the generated code illegal *)
Theorem scalar_variable_refuted : forall ds d v m, In d ds -> (d_rows d <= 1)%nat -> length v = total ds ->
  getVariableDict ds v m = None.
Proof.
  intros ds d v m I R L. unfold getVariableDict.
  assert (G : forall es cnt m, In d es -> (cnt + total es <= length v)%nat -> run_dicts v (gen_dict cnt es) m = None).
  { clear ds I L m. induction es as [|e es IH]; intros cnt m I L; [destruct I|].
    cbn [total fold_right] in L. fold (total es) in L. cbn [gen_dict run_dicts].
    destruct I as [->|I].
    - destruct (Nat.ltb_spec 1 (d_rows d)); [lia|]. reflexivity.
    - destruct (1 <? d_rows e)%nat; [|reflexivity]. cbn [run_dict].
      pose proof (read_loop v cnt (d_size e) 0 (repeat 0 (d_size e)) [] (repeat_length _ _) ltac:(lia) eq_refl) as E.
      cbn [app] in E. rewrite E. apply IH; [exact I|lia]. }
  apply G; [exact I|lia].
Qed.

(** extractData finds the columns that were written one after the other *)
Theorem columns_back : forall n (cs : list vec), Forall (fun c => length c = n) cs ->
  columns_of n (length cs) (List.concat cs) = cs.
Proof.
  intros n cs F. unfold columns_of.
  assert (G : forall (pre cs : list vec), Forall (fun c => length c = n) pre -> Forall (fun c => length c = n) cs ->
    map (fun k => firstn n (skipn (k * n) (List.concat (pre ++ cs)))) (seq (length pre) (length cs)) = cs).
  { intros pre cs'. revert pre. induction cs' as [|c cs' IH]; intros pre P C; [reflexivity|].
    inversion C as [|c' l' LC FC]; subst c' l'. cbn [length seq map]. f_equal.
    - rewrite concat_app. cbn [List.concat].
      assert (LP : length (List.concat pre) = (length pre * n)%nat).
      { clear -P. induction P as [|x l E P IH]; [reflexivity|]. cbn [List.concat length]. unfold vec in *. rewrite app_length, IH, E. lia. }
      unfold vec in *. rewrite <- LP, skipn_app, skipn_all, Nat.sub_diag, <- LC. cbn [app skipn].
      rewrite firstn_app, firstn_all, Nat.sub_diag. cbn [firstn]. apply app_nil_r.
    - replace (pre ++ c :: cs') with ((pre ++ [c]) ++ cs') by (rewrite <- app_assoc; reflexivity).
      replace (S (length pre)) with (length (pre ++ [c])) by (rewrite app_length; simpl; lia).
      apply IH; [apply Forall_app; split; [exact P|constructor; [exact LC|constructor]]|exact FC]. }
  exact (G [] cs (Forall_nil _) F).
Qed.
