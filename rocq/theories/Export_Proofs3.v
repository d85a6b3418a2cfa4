(** Constraint bounds and shared variables in the exported code. *)
From Coq Require Import Reals List Arith Bool String Lia Lra.
From Verif Require Import Export_Model Export_Spec Export_Proofs Export_Proofs2.
Import ListNotations.
Local Open Scope R_scope.
Local Notation length := List.length.

Lemma assign_app : forall p q b,
  assign (p ++ q) b = match assign p b with Some b' => assign q b' | None => None end.
Proof.
  induction p as [|[[i l] u] p IH]; intros q b; [reflexivity|]. cbn [app assign].
  destruct (write (fst b) i l); [|reflexivity]. destruct (write (snd b) i u); [apply IH|reflexivity].
Qed.

(** writing a block of pairs behind equally long prefixes *)
Lemma assign_block : forall (L U : nat -> bound) n a cnt preL preU midL midU postL postU,
  length preL = (cnt + a)%nat -> length preU = (cnt + a)%nat -> length midL = n -> length midU = n ->
  assign (map (fun i => (cnt + i, L i, U i)%nat) (seq a n)) (preL ++ midL ++ postL, preU ++ midU ++ postU)
  = Some (preL ++ map L (seq a n) ++ postL, preU ++ map U (seq a n) ++ postU).
Proof.
  intros L U n. induction n as [|n IH]; intros a cnt preL preU midL midU postL postU H1 H2 H3 H4.
  - destruct midL; [|discriminate]. destruct midU; [|discriminate]. reflexivity.
  - destruct midL as [|x midL]; [discriminate|]. destruct midU as [|y midU]; [discriminate|].
    cbn [seq map assign fst snd].
    rewrite <- H1 at 1. change (preL ++ (x :: midL) ++ postL) with (preL ++ x :: (midL ++ postL)).
    rewrite write_app. rewrite <- H2 at 1.
    change (preU ++ (y :: midU) ++ postU) with (preU ++ y :: (midU ++ postU)). rewrite write_app.
    pose proof (IH (S a) cnt (preL ++ [L a]) (preU ++ [U a]) midL midU postL postU
      ltac:(rewrite app_length; simpl; lia) ltac:(rewrite app_length; simpl; lia)
      ltac:(simpl in H3; lia) ltac:(simpl in H4; lia)) as E.
    rewrite <- !app_assoc in E. exact E.
Qed.

Lemma map_const : forall {A B} (c : B) (l : list A), map (fun _ => c) l = repeat c (length l).
Proof. intros A B c l. induction l as [|x l IH]; [reflexivity|]. simpl. rewrite IH. reflexivity. Qed.

Lemma map_nth_seq : forall (l : list bound) d cnt pre post,
  length pre = cnt ->
  map (fun i => nth (cnt + i) (pre ++ l ++ post) d) (seq 0 (length l)) = l.
Proof.
  intros l d cnt pre post H. apply (nth_ext _ _ d d).
  - rewrite map_length, seq_length. reflexivity.
  - rewrite map_length, seq_length. intros n Hn.
    rewrite (nth_indep _ d (nth (cnt + 0) (pre ++ l ++ post) d)) by (rewrite map_length, seq_length; exact Hn).
    rewrite (map_nth (fun i => nth (cnt + i) (pre ++ l ++ post) d) (seq 0 (length l)) 0%nat n).
    rewrite seq_nth by exact Hn. rewrite app_nth2 by lia. replace (cnt + (0 + n) - length pre)%nat with n by lia.
    apply app_nth1. exact Hn.
Qed.

(** the state as one block per constraint *)
Definition blocks := list bounds.
Definition state_of (bl : blocks) : bounds := (List.concat (map fst bl), List.concat (map snd bl)).
Definition fits (c : cstr) (b : bounds) : Prop := length (fst b) = c_size c /\ length (snd b) = c_size c.

Definition put (test : cstr -> bool) (val : cstr -> bounds) (c : cstr) (b : bounds) : bounds :=
  if test c then val c else b.

Definition zipped (f : cstr -> bounds -> bounds) (cs : list cstr) (bl : blocks) : blocks :=
  map (fun p => f (fst p) (snd p)) (combine cs bl).

(** a generated list of assignments that writes val c for every constraint
    that passes the test *)
Definition writes (cs0 : list cstr) (test : cstr -> bool) (val : cstr -> bounds) (p : nat -> list cstr -> list (nat * bound * bound)) : Prop :=
  forall done cs bl preL preU,
    cs0 = done ++ cs ->
    Forall2 fits cs bl -> length preL = length (List.concat (map c_lb done)) ->
    length preU = length (List.concat (map c_lb done)) ->
    assign (p (length preL) cs) (preL ++ fst (state_of bl), preU ++ snd (state_of bl))
    = Some (preL ++ fst (state_of (zipped (put test val) cs bl)),
            preU ++ snd (state_of (zipped (put test val) cs bl))).

Definition obst_is (k : nat) (c : cstr) : bool := match c_obst c with Some j => (j =? k)%nat | None => false end.

Lemma obst_writes : forall cs0 k blk val,
  (forall done c rest preL preU bL bU postL postU, cs0 = done ++ c :: rest -> length preL = length (List.concat (map c_lb done)) ->
     length preU = length (List.concat (map c_lb done)) -> fits c (bL, bU) ->
     assign (blk (length preL) (c_size c)) (preL ++ bL ++ postL, preU ++ bU ++ postU)
     = Some (preL ++ fst (val c) ++ postL, preU ++ snd (val c) ++ postU)) ->
  (forall c, In c cs0 -> fits c (val c)) ->
  writes cs0 (obst_is k) val (fun cnt cs => gen_obst blk k cnt cs).
Proof.
  intros cs0 k blk val B F done cs. revert done.
  induction cs as [|c cs IH]; intros done bl preL preU E FT H1 H2.
  - inversion FT; subst. reflexivity.
  - inversion FT as [|? b ? bl' FC FT']; subst. destruct b as [bL bU]. cbn [gen_obst].
    assert (HIN : In c (done ++ c :: cs)) by (apply in_or_app; right; left; reflexivity).
    assert (Z : zipped (put (obst_is k) val) (c :: cs) ((bL, bU) :: bl')
      = put (obst_is k) val c (bL, bU) :: zipped (put (obst_is k) val) cs bl') by reflexivity.
    unfold bounds, blocks in *. rewrite Z. unfold state_of. cbn [map List.concat fst snd].
    rewrite assign_app.
    assert (A1 : assign match c_obst c with
        | Some j => if (j =? k)%nat then blk (length preL) (c_size c) else []
        | None => [] end (preL ++ bL ++ List.concat (map fst bl'), preU ++ bU ++ List.concat (map snd bl'))
      = Some (preL ++ fst (put (obst_is k) val c (bL, bU)) ++ List.concat (map fst bl'),
              preU ++ snd (put (obst_is k) val c (bL, bU)) ++ List.concat (map snd bl'))).
    { unfold put, obst_is. destruct (c_obst c) as [j|]; [|reflexivity].
      destruct (j =? k)%nat; [|reflexivity]. apply (B done c cs); auto. }
    rewrite A1.
    assert (FP : fits c (put (obst_is k) val c (bL, bU)))
      by (unfold put; destruct (obst_is k c); [apply F; exact HIN|exact FC]).
    destruct FP as [FP1 FP2].
    specialize (IH (done ++ [c]) bl' (preL ++ fst (put (obst_is k) val c (bL, bU)))
      (preU ++ snd (put (obst_is k) val c (bL, bU)))).
    rewrite <- !app_assoc in IH. unfold state_of in IH. cbn [fst snd] in IH.
    replace (length preL + c_size c)%nat with (length (preL ++ fst (put (obst_is k) val c (bL, bU))))
      by (rewrite app_length, FP1; reflexivity).
    apply IH; [reflexivity|exact FT'| |].
    + rewrite app_length, FP1, map_app, concat_app, app_length, H1. simpl. rewrite app_nil_r. reflexivity.
    + rewrite app_length, FP2, map_app, concat_app, app_length, H2. simpl. rewrite app_nil_r. reflexivity.
Qed.

Lemma off_writes : forall c preL preU bL bU postL postU,
  length preU = length preL -> fits c (bL, bU) ->
  assign (off_block (length preL) (c_size c)) (preL ++ bL ++ postL, preU ++ bU ++ postU)
  = Some (preL ++ fst (free_pair (c_size c)) ++ postL, preU ++ snd (free_pair (c_size c)) ++ postU).
Proof.
  intros c preL preU bL bU postL postU H [F1 F2]. unfold off_block.
  rewrite (assign_block (fun _ => NegInf) (fun _ => PosInf)); try assumption; try lia.
  rewrite !map_const, seq_length. reflexivity.
Qed.

Lemma def_writes : forall cs0 done c rest preL preU bL bU postL postU,
  Forall (fun c => length (c_ub c) = length (c_lb c)) cs0 -> cs0 = done ++ c :: rest ->
  length preL = length (List.concat (map c_lb done)) -> length preU = length (List.concat (map c_lb done)) ->
  fits c (bL, bU) ->
  assign (def_block (lbg_def cs0) (ubg_def cs0) (length preL) (c_size c)) (preL ++ bL ++ postL, preU ++ bU ++ postU)
  = Some (preL ++ c_lb c ++ postL, preU ++ c_ub c ++ postU).
Proof.
  intros cs0 done c rest preL preU bL bU postL postU W E H1 H2 [F1 F2]. unfold def_block.
  rewrite (assign_block (fun i => nth (length preL + i) (lbg_def cs0) NegInf)
                        (fun i => nth (length preL + i) (ubg_def cs0) PosInf)); try assumption; try lia.
  unfold lbg_def, ubg_def. rewrite E, !map_app, !concat_app. cbn [map List.concat].
  assert (LU : forall l : list cstr, Forall (fun c => length (c_ub c) = length (c_lb c)) l ->
     length (List.concat (map c_ub l)) = length (List.concat (map c_lb l))).
  { intros l FL. induction FL as [|d l D FL IH]; [reflexivity|]. cbn [map List.concat]. rewrite !app_length, IH, D. reflexivity. }
  rewrite E in W. apply Forall_app in W. destruct W as [W1 W2]. inversion W2 as [|? ? WC W3]; subst.
  unfold c_size.
  rewrite (map_nth_seq (c_lb c)) by (symmetry; exact H1).
  rewrite <- WC at 1. rewrite (map_nth_seq (c_ub c)) by (rewrite LU by exact W1; lia). reflexivity.
Qed.

(** ---- the shutdown statements ---- *)
Definition has_shut (c : cstr) : bool := match c_shut c with Some _ => true | None => false end.
Definition shut_val (t : R) (c : cstr) : bounds :=
  if shut t c then free_pair (c_size c) else (c_lb c, c_ub c).

Lemma free_fits : forall c, fits c (free_pair (c_size c)).
Proof. intro c. split; simpl; apply repeat_length. Qed.

Lemma run_bounds_app : forall t av p q b,
  run_bounds t av (p ++ q) b = match run_bounds t av p b with Some b' => run_bounds t av q b' | None => None end.
Proof.
  intros t av p. induction p as [|s p IH]; intros q b; [reflexivity|]. cbn [app run_bounds].
  destruct (run_bound t av s b); [apply IH|reflexivity].
Qed.

Lemma shutdown_runs : forall cs0 t av,
  Forall (fun c => length (c_ub c) = length (c_lb c)) cs0 ->
  forall cs done bl preL preU, cs0 = done ++ cs -> Forall2 fits cs bl ->
    length preL = length (List.concat (map c_lb done)) -> length preU = length (List.concat (map c_lb done)) ->
    run_bounds t av (gen_shutdown (lbg_def cs0) (ubg_def cs0) (length preL) cs)
      (preL ++ fst (state_of bl), preU ++ snd (state_of bl))
    = Some (preL ++ fst (state_of (zipped (put has_shut (shut_val t)) cs bl)),
            preU ++ snd (state_of (zipped (put has_shut (shut_val t)) cs bl))).
Proof.
  intros cs0 t av W cs. induction cs as [|c cs IH]; intros done bl preL preU E FT H1 H2.
  - inversion FT; subst. reflexivity.
  - inversion FT as [|? b ? bl' FC FT']; subst. destruct b as [bL bU]. cbn [gen_shutdown].
    set (cs0 := done ++ c :: cs) in *.
    set (nb := put has_shut (shut_val t) c (bL, bU)).
    assert (Z : zipped (put has_shut (shut_val t)) (c :: cs) ((bL, bU) :: bl')
      = nb :: zipped (put has_shut (shut_val t)) cs bl') by reflexivity.
    unfold bounds, blocks in *. rewrite Z. unfold state_of. cbn [map List.concat fst snd]. rewrite run_bounds_app.
    assert (WC : length (c_ub c) = length (c_lb c)).
    { rewrite Forall_forall in W. apply W. unfold cs0. apply in_or_app. right. left. reflexivity. }
    assert (A1 : run_bounds t av match c_shut c with
        | Some f => [BIf (CTime f) (off_block (length preL) (c_size c))
                       (def_block (lbg_def cs0) (ubg_def cs0) (length preL) (c_size c))]
        | None => [] end (preL ++ bL ++ List.concat (map fst bl'), preU ++ bU ++ List.concat (map snd bl'))
      = Some (preL ++ fst nb ++ List.concat (map fst bl'), preU ++ snd nb ++ List.concat (map snd bl'))).
    { unfold nb, put, has_shut, shut_val, shut. destruct (c_shut c) as [f|]; [|reflexivity].
      cbn [run_bounds run_bound]. destruct (f t).
      - rewrite off_writes; [reflexivity|lia|exact FC].
      - rewrite (def_writes cs0 done c cs); [reflexivity|exact W|reflexivity|exact H1|exact H2|exact FC]. }
    rewrite A1.
    assert (FP : fits c nb).
    { unfold nb, put, shut_val. destruct (has_shut c); [|exact FC]. destruct (shut t c); [apply free_fits|].
      split; [reflexivity|exact WC]. }
    destruct FP as [FP1 FP2].
    specialize (IH (done ++ [c]) bl' (preL ++ fst nb) (preU ++ snd nb)).
    rewrite <- !app_assoc in IH. unfold state_of in IH. cbn [fst snd] in IH.
    replace (length preL + c_size c)%nat with (length (preL ++ fst nb)) by (rewrite app_length, FP1; reflexivity).
    apply IH; [reflexivity|exact FT'| |].
    + rewrite app_length, FP1, map_app, concat_app, app_length, H1. simpl. rewrite app_nil_r. reflexivity.
    + rewrite app_length, FP2, map_app, concat_app, app_length, H2. simpl. rewrite app_nil_r. reflexivity.
Qed.

(** ---- everything together ---- *)
Lemma zipped_fits : forall f cs bl, (forall c b, In c cs -> fits c b -> fits c (f c b)) ->
  Forall2 fits cs bl -> Forall2 fits cs (zipped f cs bl).
Proof.
  intros f cs bl H F. induction F as [|c b cs bl FC F IH]; [constructor|].
  cbn [zipped combine map fst snd]. constructor; [apply H; [left; reflexivity|exact FC]|].
  apply IH. intros c' b' I. apply H. right. exact I.
Qed.

Lemma zipped_twice : forall f g cs bl, zipped g cs (zipped f cs bl) = zipped (fun c b => g c (f c b)) cs bl.
Proof.
  intros f g cs. induction cs as [|c cs IH]; intro bl; [reflexivity|].
  destruct bl as [|b bl]; [reflexivity|]. unfold zipped in *. cbn [combine map fst snd]. f_equal. apply IH.
Qed.

Lemma zipped_ext : forall f g cs bl, length bl = length cs ->
  (forall c b, In c cs -> In b bl -> f c b = g c b) -> zipped f cs bl = zipped g cs bl.
Proof.
  intros f g cs. induction cs as [|c cs IH]; intros bl L H; [reflexivity|].
  destruct bl as [|b bl]; [discriminate|]. unfold zipped in *. cbn [combine map fst snd]. f_equal.
  - apply H; left; reflexivity.
  - apply IH; [simpl in L; lia|]. intros c' b' I J. apply H; right; assumption.
Qed.

Lemma zipped_id : forall cs bl, length bl = length cs -> zipped (fun _ b => b) cs bl = bl.
Proof.
  induction cs as [|c cs IH]; intros bl L; destruct bl as [|b bl]; try discriminate; [reflexivity|].
  unfold zipped in *. cbn [combine map fst snd]. f_equal. apply IH. simpl in L. lia.
Qed.

Lemma fits_length : forall cs bl, Forall2 fits cs bl -> length bl = length cs.
Proof. intros cs bl F. induction F; simpl; congruence. Qed.

Definition obst_val (av : list bool) (k : nat) (c : cstr) : bounds :=
  if nth k av true then (c_lb c, c_ub c) else free_pair (c_size c).

(** all obstacle statements for obstacles a, ..., a+n-1 *)
Definition obst_step (av : list bool) (a n : nat) (c : cstr) (b : bounds) : bounds :=
  match c_obst c with
  | Some j => if ((a <=? j) && (j <? a + n))%nat%bool then obst_val av j c else b
  | None => b
  end.

Lemma obst_runs : forall cs t av, Forall (fun c => length (c_ub c) = length (c_lb c)) cs ->
  forall n a bl, (a + n <= length av)%nat -> Forall2 fits cs bl ->
  run_bounds t av (map (fun k => BIf (CNotAvoid k) (gen_obst off_block k 0 cs)
                    (gen_obst (def_block (lbg_def cs) (ubg_def cs)) k 0 cs)) (seq a n)) (state_of bl)
  = Some (state_of (zipped (obst_step av a n) cs bl)).
Proof.
  intros cs t av W n. induction n as [|n IH]; intros a bl L F.
  - cbn [seq map run_bounds]. f_equal. f_equal. symmetry.
    transitivity (zipped (fun _ b => b) cs bl).
    + apply zipped_ext; [apply fits_length; exact F|]. intros c b _ _. unfold obst_step.
      destruct (c_obst c) as [j|]; [|reflexivity]. destruct (Nat.leb_spec a j), (Nat.ltb_spec j (a + 0)); try reflexivity; lia.
    + apply zipped_id. apply fits_length; exact F.
  - cbn [seq map run_bounds run_bound].
    assert (NE : nth_error av a = Some (nth a av true)) by (apply nth_error_nth'; lia). rewrite NE.
    assert (A1 : assign (if nth a av true then gen_obst (def_block (lbg_def cs) (ubg_def cs)) a 0 cs
                         else gen_obst off_block a 0 cs) (state_of bl)
      = Some (state_of (zipped (put (obst_is a) (obst_val av a)) cs bl))).
    { unfold obst_val. destruct (nth a av true).
      - pose proof (obst_writes cs a (def_block (lbg_def cs) (ubg_def cs)) (fun c => (c_lb c, c_ub c))) as WR.
        specialize (WR ltac:(intros; cbn [fst snd]; apply (def_writes cs done c rest); assumption)).
        assert (FV : forall c, In c cs -> fits c (c_lb c, c_ub c)).
        { intros c I. rewrite Forall_forall in W. split; [reflexivity|apply W; exact I]. }
        specialize (WR FV [] cs bl [] [] eq_refl F eq_refl eq_refl). cbn [app List.length] in WR.
        destruct (state_of bl); cbn [fst snd] in WR. rewrite WR. destruct (state_of _); reflexivity.
      - pose proof (obst_writes cs a off_block (fun c => free_pair (c_size c))) as WR.
        specialize (WR ltac:(intros; apply off_writes; [lia|assumption])).
        specialize (WR (fun c _ => free_fits c) [] cs bl [] [] eq_refl F eq_refl eq_refl). cbn [app List.length] in WR.
        destruct (state_of bl); cbn [fst snd] in WR. rewrite WR. destruct (state_of _); reflexivity. }
    rewrite A1, IH; [|lia|].
    + f_equal. f_equal. rewrite zipped_twice. apply zipped_ext; [apply fits_length; exact F|].
      intros c b _ _. unfold obst_step, put, obst_is. destruct (c_obst c) as [j|]; [|reflexivity].
      destruct (Nat.eqb_spec j a) as [->|NJ].
      * destruct (Nat.leb_spec (S a) a), (Nat.leb_spec a a), (Nat.ltb_spec a (S a + n)), (Nat.ltb_spec a (a + S n));
          try lia; reflexivity.
      * destruct (Nat.leb_spec (S a) j), (Nat.leb_spec a j), (Nat.ltb_spec j (S a + n)), (Nat.ltb_spec j (a + S n));
          try lia; reflexivity.
    + apply zipped_fits; [|exact F]. intros c b I FB. unfold put. destruct (obst_is a c); [|exact FB].
      unfold obst_val. destruct (nth a av true); [|apply free_fits].
      rewrite Forall_forall in W. split; [reflexivity|apply W; exact I].
Qed.

(** the bounds of constraints without shutdown condition and obstacle *)
Definition untouched (c : cstr) : Prop := c_shut c = None /\ c_obst c = None.

Definition initial_blocks (cs : list cstr) : blocks := map (fun c => (c_lb c, c_ub c)) cs.

Lemma initial_state : forall cs, state_of (initial_blocks cs) = (lbg_def cs, ubg_def cs).
Proof. intro cs. unfold state_of, initial_blocks, lbg_def, ubg_def. rewrite !map_map. reflexivity. Qed.

Definition sound_blocks (cs : list cstr) (bl : blocks) : Prop :=
  Forall2 (fun c b => fits c b /\ (untouched c -> b = (c_lb c, c_ub c))) cs bl.

Lemma sound_fits : forall cs bl, sound_blocks cs bl -> Forall2 fits cs bl.
Proof. intros cs bl F. induction F as [|c b cs bl [A _] F IH]; constructor; assumption. Qed.

Lemma wanted_sound : forall n cs t av, Forall (well_sized n) cs -> sound_blocks cs (map (wanted t av) cs).
Proof.
  intros n cs t av W. induction W as [|c cs [U _] W IH]; [constructor|]. cbn [map]. constructor; [|exact IH].
  unfold wanted. split.
  - destruct (c_obst c) as [k|]; [destruct (nth k av true)|destruct (shut t c)]; try apply free_fits; split; try reflexivity; exact U.
  - intros [S O]. rewrite O. unfold shut. rewrite S. reflexivity.
Qed.

Lemma initial_sound : forall n cs, Forall (well_sized n) cs -> sound_blocks cs (initial_blocks cs).
Proof.
  intros n cs W. induction W as [|c cs [U _] W IH]; [constructor|]. constructor; [|exact IH].
  split; [split; [reflexivity|exact U]|reflexivity].
Qed.

Lemma update_blocks : forall n cs t av bl, Forall (well_sized n) cs -> (n <= length av)%nat -> sound_blocks cs bl ->
  updateBounds n cs t av (state_of bl) = Some (state_of (map (wanted t av) cs)).
Proof.
  intros n cs t av bl W L SB. unfold updateBounds, gen_bounds. rewrite run_bounds_app.
  assert (WU : Forall (fun c => length (c_ub c) = length (c_lb c)) cs)
    by (eapply Forall_impl; [|exact W]; intros c [H _]; exact H).
  pose proof (shutdown_runs cs t av WU cs [] bl [] [] eq_refl (sound_fits _ _ SB) eq_refl eq_refl) as A.
  cbn [app List.length] in A.
  assert (ET : forall b : bounds, (fst b, snd b) = b) by (intros [? ?]; reflexivity).
  rewrite !ET in A. rewrite A.
  assert (F1 : Forall2 fits cs (zipped (put has_shut (shut_val t)) cs bl)).
  { apply zipped_fits; [|apply sound_fits; exact SB]. intros c b I FB. unfold put, shut_val.
    destruct (has_shut c); [|exact FB]. destruct (shut t c); [apply free_fits|].
    rewrite Forall_forall in WU. split; [reflexivity|apply WU; exact I]. }
  rewrite (obst_runs cs t av WU n 0 _ ltac:(lia) F1). f_equal. f_equal. rewrite zipped_twice.
  clear A F1 WU L. induction SB as [|c b cs bl [FB UB] SB IH]; [reflexivity|].
  inversion W as [|? ? [U O] W']; subst. unfold zipped in *. cbn [combine map fst snd]. f_equal; [|apply IH; exact W'].
  unfold obst_step, put, has_shut, shut_val, wanted. destruct (c_obst c) as [k|] eqn:OC.
  - specialize (O k eq_refl). destruct (Nat.leb_spec 0 k), (Nat.ltb_spec k (0 + n)); try lia. reflexivity.
  - unfold shut. destruct (c_shut c) eqn:SC; [reflexivity|]. apply UB. split; assumption.
Qed.

Lemma wanted_state : forall t av cs, state_of (map (wanted t av) cs) = wanted_all t av cs.
Proof. intros t av cs. unfold state_of, wanted_all. rewrite !map_map. reflexivity. Qed.

(** after any history of updates the bounds are those of the last time and
    flags *)
Theorem bounds_history : forall n cs h t av,
  Forall (well_sized n) cs -> Forall (fun p => n <= length (snd p))%nat h -> (n <= length av)%nat ->
  updates n cs (h ++ [(t, av)]) (lbg_def cs, ubg_def cs) = Some (wanted_all t av cs).
Proof.
  intros n cs h t av W H L. rewrite <- initial_state.
  assert (G : forall h bl, sound_blocks cs bl -> Forall (fun p => n <= length (snd p))%nat h ->
    updates n cs (h ++ [(t, av)]) (state_of bl) = Some (wanted_all t av cs)).
  { clear h H. induction h as [|[t' av'] h IH]; intros bl SB H; cbn [app updates].
    - rewrite (update_blocks n cs t av bl W L SB), wanted_state. reflexivity.
    - inversion H as [|? ? L' H']; subst. cbn [snd] in L'.
      rewrite (update_blocks n cs t' av' bl W L' SB). apply IH; [|exact H'].
      apply (wanted_sound n). exact W. }
  apply G; [apply (initial_sound n); exact W|exact H].
Qed.

(** the bounds of the Python problem are reached when every obstacle is to be
    avoided and obstacles have no shutdown conditions *)
Theorem bounds_python : forall n cs h t av,
  Forall (well_sized n) cs -> Forall (fun p => n <= length (snd p))%nat h -> (n <= length av)%nat ->
  Forall (fun a => a = true) av -> Forall (fun c => c_obst c <> None -> c_shut c = None) cs ->
  updates n cs (h ++ [(t, av)]) (lbg_def cs, ubg_def cs) = Some (py_update_bounds cs t).
Proof.
  intros n cs h t av W H L A C. rewrite (bounds_history n) by assumption. f_equal.
  assert (E : forall c, In c cs -> wanted t av c
     = (if shut t c then repeat NegInf (c_size c) else c_lb c, if shut t c then repeat PosInf (c_size c) else c_ub c)).
  { intros c I. rewrite Forall_forall in C. specialize (C c I). unfold wanted.
    destruct (c_obst c) as [k|].
    - unfold shut. rewrite (C ltac:(discriminate)).
      assert (N : nth k av true = true).
      { destruct (Nat.ltb_spec k (length av)).
        - rewrite Forall_forall in A. apply A, nth_In. assumption.
        - apply nth_overflow. assumption. }
      rewrite N. reflexivity.
    - destruct (shut t c); reflexivity. }
  unfold wanted_all, py_update_bounds. f_equal; f_equal; apply map_ext_in; intros c I; rewrite (E c I); reflexivity.
Qed.

(** a shutdown condition of an obstacle's own constraint has no effect *)
Theorem obstacle_shutdown_refuted : exists n cs t av b,
  Forall (well_sized n) cs /\ (n <= length av)%nat /\ Forall (fun a => a = true) av /\
  updates n cs [(t, av)] (lbg_def cs, ubg_def cs) = Some b /\ b <> py_update_bounds cs t.
Proof.
  exists 1%nat, [mkC [NegInf] [Fin 0] (Some (fun _ => true)) (Some 0%nat)], 0, [true], ([NegInf], [Fin 0]).
  split; [constructor; [split; [reflexivity|intros k E; injection E as <-; lia]|constructor]|].
  split; [simpl; lia|]. split; [constructor; [reflexivity|constructor]|]. split; [reflexivity|].
  cbn. intro H. discriminate.
Qed.

(** ---- shared variables ---- *)
Lemma copy_inds_block : forall (m : dict) l nm x ind cnt (pre mid post : vec),
  m l nm = Some x -> Forall (fun i => i < length x)%nat ind -> length pre = cnt -> length mid = length ind ->
  copy_inds m l nm cnt ind (pre ++ mid ++ post) = Some (pre ++ map (fun i => nth i x 0) ind ++ post).
Proof.
  intros m l nm x ind. induction ind as [|i ind IH]; intros cnt pre mid post E F P M.
  - destruct mid; [reflexivity|discriminate].
  - destruct mid as [|y mid]; [discriminate|]. inversion F; subst. cbn [copy_inds]. rewrite E.
    rewrite nth_error_some by assumption.
    change (pre ++ (y :: mid) ++ post) with (pre ++ y :: (mid ++ post)). rewrite write_app.
    pose proof (IH (S (length pre)) (pre ++ [nth i x 0]) mid post E ltac:(assumption)
      ltac:(rewrite app_length; simpl; lia) ltac:(simpl in M; lia)) as G.
    rewrite <- !app_assoc in G. exact G.
Qed.

Theorem shared_retrieved : forall qs m v, Forall (shared_ok m) qs -> length v = shared_total qs ->
  retrieve_shared m 0 qs v = Some (List.concat (map (shared_value m) qs)).
Proof.
  assert (G : forall m qs pre v, Forall (shared_ok m) qs -> length v = shared_total qs ->
    retrieve_shared m (length pre) qs (pre ++ v) = Some (pre ++ List.concat (map (shared_value m) qs))).
  { intros m qs. induction qs as [|q qs IH]; intros pre v F L.
    - destruct v; [reflexivity|discriminate].
    - inversion F as [|? ? (x & E & B)]; subst. cbn [shared_total fold_right] in L. fold (shared_total qs) in L.
      cbn [retrieve_shared].
      rewrite <- (firstn_skipn (length (s_ind q)) v).
      rewrite (copy_inds_block m _ _ x); [|exact E|exact B|reflexivity|rewrite firstn_length; lia].
      assert (V : map (fun i => nth i x 0) (s_ind q) = shared_value m q) by (unfold shared_value; rewrite E; reflexivity).
      rewrite V.
      replace (length pre + length (s_ind q))%nat with (length (pre ++ shared_value m q))
        by (rewrite app_length, <- V, map_length; reflexivity).
      rewrite app_assoc, IH; [|assumption|rewrite skipn_length; lia].
      rewrite <- app_assoc. reflexivity. }
  intros qs m v F L. exact (G m qs [] v F L).
Qed.

Lemma covers_own : forall l n k, covers (seq (l * n) n) (k * n) n = true -> (0 < n)%nat -> k = l.
Proof.
  intros l n k H N. unfold covers in H. rewrite forallb_forall in H.
  assert (A : In (k * n)%nat (seq (k * n) n)) by (apply in_seq; lia).
  apply H, existsb_exists in A. destruct A as (j & J & E). apply Nat.eqb_eq in E. subst j. apply in_seq in J. nia.
Qed.

Lemma covers_self : forall l n, covers (seq (l * n) n) (l * n) n = true.
Proof.
  intros l n. unfold covers. apply forallb_forall. intros i I. apply existsb_exists. exists i.
  split; [exact I|apply Nat.eqb_refl].
Qed.

Lemma shared_block_fills : forall M n (pre mid post old : vec), square n M -> length mid = n ->
  (length pre + n <= length old)%nat ->
  shared_block M n (length pre) old (pre ++ mid ++ post)
  = Some (pre ++ mat_vec M (firstn n (skipn (length pre) old)) ++ post).
Proof.
  intros M n pre mid post old SQ L LO. unfold shared_block.
  pose proof (fill_loop M old (length pre) n n (length pre) 0 mid pre post SQ LO L ltac:(lia) ltac:(lia)) as F.
  exact F.
Qed.

(** the loop over l writes the block once *)
Lemma cover_loop : forall M n l (pre mid post old : vec), square n M -> length mid = n ->
  (length pre + n <= length old)%nat -> (l < n)%nat ->
  for_loop n 0 (fun k v => if covers (seq (l * n) n) (k * n) n then shared_block M n (length pre) old v else Some v)
    (pre ++ mid ++ post) = Some (pre ++ mat_vec M (firstn n (skipn (length pre) old)) ++ post).
Proof.
  intros M n l pre mid post old SQ L LO LN.
  set (w := mat_vec M (firstn n (skipn (length pre) old))).
  assert (LW : length w = n) by (unfold w, mat_vec; rewrite map_length; apply SQ).
  set (body := fun k v => _).
  assert (G : forall j a, (a + j = n)%nat ->
     for_loop j a body (if (a <=? l)%nat then pre ++ mid ++ post else pre ++ w ++ post) = Some (pre ++ w ++ post)).
  { induction j as [|j IH]; intros a A.
    - cbn [for_loop]. destruct (Nat.leb_spec a l); [lia|reflexivity].
    - cbn [for_loop]. unfold body at 1. destruct (covers (seq (l * n) n) (a * n) n) eqn:C.
      + apply covers_own in C; [|lia]. subst a. rewrite Nat.leb_refl.
        rewrite shared_block_fills by assumption. fold w.
        specialize (IH (S l) ltac:(lia)). destruct (Nat.leb_spec (S l) l); [lia|]. exact IH.
      + specialize (IH (S a) ltac:(lia)).
        destruct (Nat.leb_spec (S a) l), (Nat.leb_spec a l); try lia; try exact IH.
        exfalso. assert (a = l) by lia. subst a. rewrite covers_self in C. discriminate. }
  specialize (G n 0%nat ltac:(lia)). exact G.
Qed.

Theorem shared_transformed : forall qs v, Forall one_column qs -> length v = shared_total qs ->
  transformSharedSplines qs v = Some (shared_shifted qs v).
Proof.
  intros qs0 v0 F0 L0. unfold transformSharedSplines.
  assert (G : forall qs pre0 pre v, Forall one_column qs -> length v = shared_total qs -> length pre = length pre0 ->
    transform_shared 0 (length pre) qs (pre0 ++ v) (pre ++ v) = Some (pre ++ shared_shifted qs v)).
  { induction qs as [|q qs IH]; intros pre0 pre v F L P.
    - destruct v; [reflexivity|discriminate].
    - inversion F as [|? ? OC F']; subst. cbn [shared_total fold_right] in L. fold (shared_total qs) in L.
      cbn [transform_shared shared_shifted].
      set (mid := firstn (length (s_ind q)) v). set (rest := skipn (length (s_ind q)) v).
      assert (LM : length mid = length (s_ind q)) by (unfold mid; rewrite firstn_length; lia).
      assert (LR : length rest = shared_total qs) by (unfold rest; rewrite skipn_length; lia).
      assert (MV : v = mid ++ rest) by (symmetry; apply firstn_skipn).
      set (new := match s_basis q with Some _ => mat_vec (s_tf q) mid | None => mid end).
      assert (A : match s_basis q with
          | None => Some (pre ++ v)
          | Some n => for_loop n 0 (fun l v => if covers (s_ind q) (l * n) n
                then shared_block (s_tf q) n (0 + length pre) (pre0 ++ mid ++ rest) v else Some v) (pre ++ v)
          end = Some (pre ++ new ++ rest) /\ length new = length (s_ind q)).
      { unfold new. destruct (s_basis q) as [n|] eqn:B.
        - destruct (OC n B) as (SQ & l & LN & EI).
          assert (LI : length (s_ind q) = n) by (rewrite EI; apply seq_length).
          split; [|unfold mat_vec; rewrite map_length, LI; apply SQ].
          rewrite MV, EI. cbn [plus].
          pose proof (cover_loop (s_tf q) n l pre mid rest (pre0 ++ mid ++ rest) SQ ltac:(lia)
            ltac:(rewrite !app_length; lia) LN) as CL.
          unfold vec in *. rewrite CL. do 4 f_equal. rewrite skipn_front by (symmetry; exact P).
          apply firstn_front. lia.
        - split; [rewrite <- MV; reflexivity|exact LM]. }
      destruct A as [A LNEW].
      assert (PV : pre0 ++ v = pre0 ++ mid ++ rest) by (rewrite <- MV; reflexivity).
      unfold vec in *. rewrite PV. rewrite A. rewrite <- LNEW.
      replace (length pre + length new)%nat with (length (pre ++ new)) by (rewrite app_length; reflexivity).
      rewrite (app_assoc pre0), (app_assoc pre).
      rewrite IH; [|exact F'|exact LR|rewrite !app_length; lia].
      rewrite <- app_assoc. reflexivity. }
  exact (G qs0 [] [] v0 F0 L0 eq_refl).
Qed.

(** a shared variable with two columns: only the first is shifted *)
Theorem shared_columns_refuted : exists q v w,
  s_basis q = Some 2%nat /\ square 2 (s_tf q) /\ s_ind q = seq 0 4 /\ length v = 4%nat /\
  transformSharedSplines [q] v = Some w /\ firstn 2 w = mat_vec (s_tf q) (firstn 2 v) /\
  skipn 2 w = skipn 2 v /\ skipn 2 w <> mat_vec (s_tf q) (skipn 2 v).
Proof.
  exists (mkSh "vehicle0" "splines_seg0" (seq 0 4) (Some 2%nat) swap2), [1; 2; 3; 4], [2; 1; 3; 4].
  split; [reflexivity|]. split; [split; [reflexivity|repeat constructor]|]. split; [reflexivity|]. split; [reflexivity|].
  split; [cbn; f_equal; repeat match goal with |- _ :: _ = _ :: _ => f_equal end; ring|].
  split; [cbn; repeat match goal with |- _ :: _ = _ :: _ => f_equal end; ring|].
  split; [reflexivity|]. cbn. intro H. injection H as H _. lra.
Qed.

(** the obstacle prediction is that of uniformly accelerated motion; C48
    states the same law for the Python problem *)
Theorem obstacle_predicted : forall u p0 p1 v0 v1 a0 a1,
  predict2 u (mkO [p0; p1] [v0; v1] [a0; a1])
  = Some ([p0 + u * v0 + u ^ 2 / 2 * a0; p1 + u * v1 + u ^ 2 / 2 * a1], [v0 + u * a0; v1 + u * a1], [a0; a1]).
Proof.
  intros. unfold predict2. cbn [o_pos o_vel o_acc].
  replace (p0 + u * v0 + 5 / 10 * u ^ 2 * a0) with (p0 + u * v0 + u ^ 2 / 2 * a0) by field.
  replace (p1 + u * v1 + 5 / 10 * u ^ 2 * a1) with (p1 + u * v1 + u ^ 2 / 2 * a1) by field. reflexivity.
Qed.

(** children whose label contains "obstacle" are numbered consecutively *)
Theorem obstacle_numbered : forall labels l, NoDup labels -> In l labels -> contains "obstacle" l = true ->
  exists pre post, labels = pre ++ l :: post /\
    obstacle_index labels 0 l = Some (length (filter (contains "obstacle") pre)).
Proof.
  intros labels l ND I C. destruct (in_split _ _ I) as (pre & post & ->). exists pre, post. split; [reflexivity|].
  assert (G : forall p n, ~ In l p ->
    obstacle_index (p ++ l :: post) n l = Some (n + length (filter (contains "obstacle") p))%nat).
  { induction p as [|x p IH]; intros n NI.
    - cbn [app obstacle_index filter List.length]. rewrite C, String.eqb_refl, Nat.add_0_r. reflexivity.
    - cbn [app obstacle_index filter]. destruct (contains "obstacle" x).
      + destruct (String.eqb_spec x l) as [E|E]; [exfalso; apply NI; left; exact E|].
        rewrite IH by (intro; apply NI; right; assumption). cbn [List.length]. f_equal. lia.
      + apply IH. intro; apply NI; right; assumption. }
  apply NoDup_remove_2 in ND. apply (G pre 0%nat). intro H. apply ND, in_or_app. left. exact H.
Qed.
