(* Proofs about the G-code reader: position bookkeeping, division, connections,
   parsing and the shift-and-scale conversion. *)
From Coq Require Import String Ascii List QArith Bool Arith Lia Lqa.
From Verif Require Import Gcode_Model Gcode_Spec.
Import ListNotations.
Open Scope nat_scope.

(* ---------- points ---------- *)

Lemma peq_refl : forall p, peq p p.
Proof. intros p; repeat split; reflexivity. Qed.
Lemma peq_sym : forall p q, peq p q -> peq q p.
Proof. intros p q (A & B & C); repeat split; symmetry; assumption. Qed.
Lemma peq_trans : forall p q r, peq p q -> peq q r -> peq p r.
Proof.
  intros p q r (A & B & C) (D & E & F); repeat split; etransitivity; eassumption.
Qed.
Lemma same_pos_peq : forall p q, same_pos p q = true <-> peq p q.
Proof.
  intros p q; unfold same_pos, peq. rewrite !andb_true_iff, !Qeq_bool_iff. tauto.
Qed.
Lemma same_pos_false : forall p q, same_pos p q = false <-> ~ peq p q.
Proof.
  intros p q. rewrite <- same_pos_peq. destruct (same_pos p q); split; intros; congruence.
Qed.

Lemma bend_target : forall g c p, bend (make_block g c p) = target p c.
Proof. reflexivity. Qed.

Lemma idle_travels : forall b, idle b = false <-> travels (view b).
Proof.
  intros [g s e ct f]; unfold idle, travels, view, straight; simpl.
  destruct g; simpl; try (split; trivial; reflexivity); apply same_pos_false.
Qed.

(* ---------- the chain ---------- *)

Lemma blocks_from_prev : forall cs b,
  kept travels (moves (bend b) cs) (map view (blocks_from (Some b) cs)).
Proof.
  induction cs as [|c cs IH]; intros b; simpl; [constructor|].
  unfold generate. destruct (ctype c) as [g|]; [|apply IH].
  set (n := make_block g c (bend b)).
  specialize (IH n). assert (V : view n = (g, bend b, target (bend b) c)) by reflexivity.
  assert (E : bend n = target (bend b) c) by reflexivity. rewrite E in IH.
  destruct (idle n) eqn:I.
  - apply kept_no; [|exact IH]. rewrite <- V. intros T. apply idle_travels in T. congruence.
  - cbn [map]. rewrite V. apply kept_yes; [|exact IH]. rewrite <- V. apply idle_travels; exact I.
Qed.

Lemma blocks_from_start : forall cs,
  kept travels (moves (origin cs) cs) (map view (blocks_from None cs)).
Proof.
  induction cs as [|c cs IH]; simpl; [constructor|].
  unfold generate. destruct (ctype c) as [g|]; [|exact IH].
  set (p := match g with G00 => target (0, 0, 0)%Q c | _ => (0, 0, 0)%Q end).
  assert (P : match g with G00 => (or_else (cX c) 0, or_else (cY c) 0, or_else (cZ c) 0) | _ => (0, 0, 0) end%Q = p)
    by (unfold p; destruct g; reflexivity).
  rewrite P. set (n := make_block g c p).
  pose proof (blocks_from_prev cs n) as H.
  assert (V : view n = (g, p, target p c)) by reflexivity.
  assert (E : bend n = target p c) by reflexivity. rewrite E in H.
  destruct (idle n) eqn:I.
  - apply kept_no; [|exact H]. rewrite <- V. intros T. apply idle_travels in T. congruence.
  - cbn [map]. rewrite V. apply kept_yes; [|exact H]. rewrite <- V. apply idle_travels; exact I.
Qed.

Lemma create_blocks_meaning : forall num lines bs,
  create_blocks num [] lines = Some bs ->
  exists cs, parse_all num lines = Some cs /\ kept travels (moves (origin cs) cs) (map view bs).
Proof.
  intros num lines bs. unfold create_blocks. destruct (parse_all num lines) as [cs|]; [|discriminate].
  intros H; inversion H; subst. exists cs; split; [reflexivity|]. apply blocks_from_start.
Qed.

Lemma last_block_some : forall bs b, last_block (b :: bs) <> None.
Proof. induction bs as [|x bs IH]; intros b; [discriminate|]. exact (IH x). Qed.
Lemma last_block_snoc : forall bs b, last_block (bs ++ [b]) = Some b.
Proof.
  induction bs as [|a bs IH]; intros b; [reflexivity|].
  simpl. destruct (bs ++ [b]) eqn:E; [destruct bs; discriminate|]. rewrite <- E. apply IH.
Qed.

Lemma create_blocks_more : forall num bs b lines bs',
  create_blocks num (bs ++ [b]) lines = Some bs' ->
  exists cs new, parse_all num lines = Some cs /\ bs' = (bs ++ [b]) ++ new /\
    kept travels (moves (bend b) cs) (map view new).
Proof.
  intros num bs b lines bs'. unfold create_blocks. destruct (parse_all num lines) as [cs|]; [|discriminate].
  intros H; inversion H; subst. exists cs, (blocks_from (Some b) cs). rewrite last_block_snoc.
  repeat split. apply blocks_from_prev.
Qed.

Lemma kept_forall : forall A (P : A -> Prop) l k, kept P l k -> forall x, In x k -> P x.
Proof.
  intros A P l k H; induction H; simpl; intros y Hy; [tauto| |auto].
  destruct Hy as [<- | Hy]; auto.
Qed.

(* a kept move starts where the last kept one ended: the skipped ones do not move *)
Lemma linked_from : forall cs p k,
  kept travels (moves p cs) (map view k) ->
  linked k /\ match k with [] => True | b :: _ => peq p (bstart b) end /\
  peq (match last_block k with Some b => bend b | None => p end) (final p cs).
Proof.
  induction cs as [|c cs IH]; intros p k H; simpl in H.
  - inversion H. apply eq_sym, map_eq_nil in H1 || apply eq_sym, map_eq_nil in H0. subst.
    simpl. repeat split; reflexivity.
  - cbn [final]. destruct (ctype c) as [g|]; [|apply IH; exact H].
    inversion H as [|x l k' T K EQ1 EQ2|x l k' T K EQ1 EQ2]; subst.
    + destruct k as [|b k0]; [discriminate|]. cbn [map] in EQ2. inversion EQ2 as [[E1 E2]]; subst.
      destruct (IH _ _ K) as (L & N & F). rewrite H0 in *. split; [|split].
      * cbn [linked]. split; [|exact L]. destruct k0 as [|b' k0]; [trivial|]. exact N.
      * apply peq_refl.
      * destruct k0 as [|b' k0]; [exact F|].
        change (last_block (b :: b' :: k0)) with (last_block (b' :: k0)).
        destruct (last_block (b' :: k0)) eqn:LB; [exact F|]. exfalso; exact (last_block_some _ _ LB).
    + destruct (IH _ _ K) as (L & N & F). split; [exact L|]. 
      assert (PQ : peq p (target p c)).
      { unfold travels in T; cbn [fst snd] in T. destruct g; try (exfalso; apply T; exact I);
        apply same_pos_peq; destruct (same_pos p (target p c)) eqn:E; [reflexivity| |reflexivity|];
        exfalso; apply T; apply same_pos_false; exact E. }
      split.
      * destruct k as [|b k0]; [trivial|]. eapply peq_trans; eauto.
      * destruct (last_block k); [exact F|]. eapply peq_trans; eauto.
Qed.

Lemma create_blocks_linked : forall num lines bs,
  create_blocks num [] lines = Some bs -> linked bs /\ Forall (fun b => travels (view b)) bs.
Proof.
  intros num lines bs H. destruct (create_blocks_meaning _ _ _ H) as (cs & _ & K). split.
  - apply (linked_from cs (origin cs) bs K).
  - apply Forall_forall. intros b Hb. apply (kept_forall _ _ _ _ K). apply in_map; exact Hb.
Qed.

Lemma create_blocks_end : forall num lines bs b,
  create_blocks num [] lines = Some bs -> last_block bs = Some b ->
  exists cs, parse_all num lines = Some cs /\ peq (bend b) (final (origin cs) cs).
Proof.
  intros num lines bs b H L. destruct (create_blocks_meaning _ _ _ H) as (cs & P & K).
  exists cs; split; [exact P|]. destruct (linked_from _ _ _ K) as (_ & _ & F). rewrite L in F. exact F.
Qed.

(* a leading G00 only sets the position *)
Lemma leading_rapid : forall c cs,
  ctype c = Some G00 ->
  blocks_from None (c :: cs) = blocks_from (generate c None) cs.
Proof.
  intros c cs H. cbn [blocks_from]. unfold generate; rewrite H.
  set (n := make_block _ _ _). assert (I : idle n = true).
  { unfold idle. cbn. unfold same_pos, px, py, pz; cbn. rewrite !andb_true_iff, !Qeq_bool_iff.
    unfold or_else; destruct (cX c), (cY c), (cZ c); repeat split; reflexivity. }
  rewrite I; reflexivity.
Qed.

(* centres of arcs *)
Lemma arc_center : forall g c prev b i j,
  g = G02 \/ g = G03 -> ctype c = Some g -> cI c = Some i -> cJ c = Some j -> generate c prev = Some b ->
  (px (bcenter b) = px (bstart b) + i /\ py (bcenter b) = py (bstart b) + j)%Q.
Proof.
  intros g c prev b i j G T I J H. unfold generate in H; rewrite T in H. inversion H; subst.
  unfold make_block; cbn. rewrite I, J. destruct G; subst; split; reflexivity.
Qed.

(* ---------- division ---------- *)

Lemma z_move_iff : forall b, z_move b = true <-> changes_height b.
Proof.
  intros [g s e ct f]; unfold z_move, changes_height, straight; cbn [btype bstart bend].
  assert (Q : negb (Qeq_bool (pz s) (pz e)) = true <-> ~ (pz s == pz e)%Q).
  { rewrite negb_true_iff. split.
    - intros F. apply Qeq_bool_neq; exact F.
    - intros N. destruct (Qeq_bool (pz s) (pz e)) eqn:E; [|reflexivity]. apply Qeq_bool_eq in E; tauto. }
  destruct g; cbn [andb]; rewrite ?Q; split; intros H; try discriminate; try tauto;
  try (split; [auto|exact H]); destruct H as ([H | H] & H'); try discriminate; exact H'.
Qed.

Lemma division_concat : forall bs cur, concat (division_from cur bs) = cur ++ bs.
Proof.
  induction bs as [|b bs IH]; intros cur; simpl.
  - reflexivity.
  - destruct (z_move b).
    + rewrite concat_app. simpl. rewrite IH. destruct cur; simpl; [reflexivity|]. rewrite app_nil_r. reflexivity.
    + rewrite IH, <- app_assoc. reflexivity.
Qed.

Lemma division_pieces : forall bs cur,
  Forall (fun b => ~ changes_height b) cur ->
  Forall (fun p => (exists b, p = [b] /\ changes_height b) \/ Forall (fun b => ~ changes_height b) p)
         (division_from cur bs).
Proof.
  induction bs as [|b bs IH]; intros cur H; simpl.
  - constructor; [right; exact H|constructor].
  - destruct (z_move b) eqn:Z.
    + apply Forall_app; split.
      * destruct cur; constructor; [right; exact H|constructor].
      * constructor; [left; exists b; split; [reflexivity|apply z_move_iff; exact Z]|].
        apply IH; constructor.
    + apply IH. apply Forall_app; split; [exact H|]. constructor; [|constructor].
      rewrite <- z_move_iff. congruence.
Qed.

(* consecutive pieces never both consist of level blocks, and only the last
   piece can be empty *)
Lemma division_nonempty : forall bs cur pre p post,
  division_from cur bs = pre ++ p :: post -> post <> [] -> p <> [].
Proof.
  induction bs as [|b bs IH]; intros cur pre p post H NP; simpl in H.
  - destruct pre as [|x pre]; inversion H; subst; [congruence|]. destruct pre; discriminate.
  - destruct (z_move b).
    + destruct cur as [|c cur]; cbn [app] in H.
      * destruct pre as [|x pre]; inversion H; subst; [discriminate|]. eapply IH; eauto.
      * destruct pre as [|x pre]; inversion H as [[E1 E2]]; subst; [discriminate|].
        destruct pre as [|y pre]; inversion E2; subst; [discriminate|]. eapply IH; eauto.
    + eapply IH; eauto.
Qed.

Lemma division_last : forall bs cur,
  last (division_from cur bs) [] = [] <->
  match last_block bs with None => cur = [] | Some b => changes_height b end.
Proof.
  induction bs as [|b bs IH]; intros cur.
  - simpl. tauto.
  - assert (L : last_block (b :: bs) = match last_block bs with None => Some b | Some x => Some x end).
    { destruct bs as [|b' bs']; [reflexivity|].
      change (last_block (b :: b' :: bs')) with (last_block (b' :: bs')).
      destruct (last_block (b' :: bs')) eqn:E; [reflexivity|].
      exfalso; exact (last_block_some _ _ E). }
    rewrite L. cbn [division_from]. destruct (z_move b) eqn:Z.
    + assert (LA : forall l q d, last (q :: division_from [] d) l = last (division_from [] d) l).
      { intros l q d. destruct (division_from [] d) eqn:E; [|reflexivity].
        exfalso. clear -E. assert (G : forall d c, division_from c d <> []).
        { induction d0 as [|x d0 IH]; intros c; simpl; [discriminate|].
          destruct (z_move x); [destruct c; discriminate|apply IH]. }
        exact (G _ _ E). }
      assert (EQ : last (match cur with [] => [] | _ => [cur] end ++ [b] :: division_from [] bs) []
                   = last (division_from [] bs) []).
      { destruct cur; cbn [app]; [apply LA|]. rewrite <- (LA [] [b] bs). reflexivity. }
      rewrite EQ, IH. destruct (last_block bs); [tauto|].
      split; [intros _; apply z_move_iff; exact Z|reflexivity].
    + rewrite IH. destruct (last_block bs); [tauto|]. split; intros H.
      * destruct cur; discriminate.
      * exfalso. apply z_move_iff in H. congruence.
Qed.

(* ---------- connections ---------- *)

Lemma connections_starts : forall bs cs, get_connections bs = Some cs ->
  firstn (length bs) cs = map bstart bs /\ length cs = length bs + 2.
Proof.
  intros bs cs H. unfold get_connections in H. destruct bs as [|b bs]; [discriminate|].
  destruct (last_block (b :: bs)) as [bl|]; [|discriminate].
  assert (E : cs = map bstart (b :: bs) ++ [bstart bl; bstart b]) by congruence. rewrite E; clear H E. split.
  - set (l := b :: bs). rewrite <- (map_length bstart l).
    rewrite firstn_app, firstn_all, Nat.sub_diag, firstn_O, app_nil_r. reflexivity.
  - rewrite app_length, map_length. reflexivity.
Qed.

(* ---------- parsing ---------- *)

Lemma has_In : forall a s, has a s = true <-> In a (list_ascii_of_string s).
Proof.
  intros a s; induction s as [|b s IH]; simpl; [split; [discriminate|tauto]|].
  destruct (Ascii.eqb a b) eqn:E.
  - apply Ascii.eqb_eq in E; subst. split; intros; [left; reflexivity|reflexivity].
  - apply Ascii.eqb_neq in E. rewrite IH. split; [auto|]. intros [-> | H]; [congruence|exact H].
Qed.
Lemma has_not : forall a s, has a s = false <-> ~ In a (list_ascii_of_string s).
Proof. intros a s. rewrite <- has_In. destruct (has a s); split; congruence. Qed.

Lemma motion_word_in : forall w g, motion_word w = Some g -> In w ["G00"; "G01"; "G02"; "G03"]%string.
Proof.
  intros w g. unfold motion_word.
  destruct (String.eqb w "G00") eqn:A; [apply String.eqb_eq in A; subst; simpl; tauto|].
  destruct (String.eqb w "G01") eqn:B; [apply String.eqb_eq in B; subst; simpl; tauto|].
  destruct (String.eqb w "G02") eqn:C; [apply String.eqb_eq in C; subst; simpl; tauto|].
  destruct (String.eqb w "G03") eqn:D; [apply String.eqb_eq in D; subst; simpl; tauto|discriminate].
Qed.
Lemma motion_word_letter : forall w a, In a letters -> In a (list_ascii_of_string w) -> motion_word w = None.
Proof.
  intros w a L H. destruct (motion_word w) as [g|] eqn:M; [|reflexivity].
  apply motion_word_in in M. exfalso. unfold letters in L. simpl in L, M.
  destruct M as [<- | [<- | [<- | [<- | []]]]]; simpl in H;
  repeat (destruct L as [<- | L]; [repeat (destruct H as [H | H]; [discriminate|]); exact H|]); exact L.
Qed.

Lemma assign_meaningless : forall num d w, meaningless w -> assign num d w = Some d.
Proof.
  intros num d w (M & L). unfold assign.
  destruct (motion_word w) as [g|] eqn:E; [apply motion_word_in in E; tauto|].
  destruct (has "(" w); [reflexivity|].
  assert (H : forall a, In a ["X"; "Y"; "Z"; "I"; "J"; "K"]%char -> has a w = false)
    by (intros a Ha; apply has_not, L, Ha).
  rewrite !H; simpl; tauto.
Qed.
Lemma parse_app : forall num ws1 ws2 d,
  parse_words num d (ws1 ++ ws2) = match parse_words num d ws1 with Some d' => parse_words num d' ws2 | None => None end.
Proof.
  induction ws1 as [|w ws1 IH]; intros ws2 d; simpl; [reflexivity|].
  destruct (assign num d w); [apply IH|reflexivity].
Qed.
Lemma parse_meaningless : forall num ws1 w ws2 d, meaningless w ->
  parse_words num d (ws1 ++ w :: ws2) = parse_words num d (ws1 ++ ws2).
Proof.
  intros num ws1 w ws2 d M. rewrite !parse_app. destruct (parse_words num d ws1) as [d'|]; [|reflexivity].
  simpl. rewrite assign_meaningless by exact M. reflexivity.
Qed.

(* F words never reach the command *)
Lemma assign_cF : forall num d w d', assign num d w = Some d' -> cF d' = cF d.
Proof.
  intros num d w d'. unfold assign. destruct (motion_word w); [intros H; inversion H; reflexivity|].
  destruct (has "(" w); [intros H; inversion H; reflexivity|].
  repeat match goal with
  | |- (if ?b then _ else _) = _ -> _ => destruct b
  | |- match ?b with Some _ => _ | None => _ end = _ -> _ => destruct b
  end; intros H; inversion H; reflexivity.
Qed.
Lemma parse_feed : forall num line c, parse num line = Some c -> cF c = None.
Proof.
  intros num line c. unfold parse.
  assert (G : forall ws d, parse_words num d ws = Some c -> cF c = cF d).
  { induction ws as [|w ws IH]; intros d H; simpl in H; [inversion H; reflexivity|].
    destruct (assign num d w) as [d'|] eqn:E; [|discriminate]. rewrite (IH _ H). eapply assign_cF; eauto. }
  intros H. exact (G _ _ H).
Qed.
Lemma parse_all_feed : forall num lines cs, parse_all num lines = Some cs -> Forall (fun c => cF c = None) cs.
Proof.
  induction lines as [|l lines IH]; intros cs H; simpl in H; [inversion H; constructor|].
  destruct (parse num l) as [c|] eqn:P; [|discriminate]. destruct (parse_all num lines) as [cs'|]; [|discriminate].
  inversion H; subst. constructor; [eapply parse_feed; eauto|apply IH; reflexivity].
Qed.
Lemma create_blocks_feed : forall num lines bs,
  create_blocks num [] lines = Some bs -> Forall (fun b => bfeed b = 444%Q) bs.
Proof.
  intros num lines bs. unfold create_blocks. destruct (parse_all num lines) as [cs|] eqn:P; [|discriminate].
  intros H; inversion H; subst; clear H. apply parse_all_feed in P. cbn [app last_block].
  assert (G : forall prev, Forall (fun b => bfeed b = 444%Q) (blocks_from prev cs)).
  { induction P as [|c cs F P IH]; intros prev; simpl; [constructor|].
    unfold generate. destruct (ctype c) as [g|]; [|apply IH]. set (n := make_block _ _ _).
    assert (FN : bfeed n = 444%Q) by (unfold n, make_block; cbn; rewrite F; reflexivity).
    destruct (idle n); [apply IH|constructor; [exact FN|apply IH]]. }
  apply G.
Qed.

(* ---------- shifting and scaling ---------- *)

Definition orel (f : Q -> Q) (o o' : option Q) : Prop :=
  match o, o' with
  | None, None => True
  | Some q, Some q' => (q' == f q)%Q
  | _, _ => False
  end.
Definition crel (ox oy k : Q) (c c' : command) : Prop :=
  ctype c' = ctype c /\ orel (fun q => (q - ox) * k)%Q (cX c) (cX c') /\
  orel (fun q => (q - oy) * k)%Q (cY c) (cY c') /\ orel (fun q => q) (cZ c) (cZ c') /\
  orel (fun q => q * k)%Q (cI c) (cI c') /\ orel (fun q => q * k)%Q (cJ c) (cJ c') /\
  orel (fun q => q) (cK c) (cK c').

Section Convert.
Variables (num : string -> option Q) (str : Q -> string) (ox oy k : Q).
Hypothesis FA : faithful num str.

Lemma str_has : forall q a, In a ("("%char :: letters) -> has a (str q) = false.
Proof. intros q a H. apply has_not. apply (proj2 FA); exact H. Qed.
Lemma letter_has : forall a b q, In b ("("%char :: letters) -> has b (String a (str q)) = Ascii.eqb b a.
Proof.
  intros a b q H. cbn [has]. rewrite str_has by exact H. destruct (Ascii.eqb b a); reflexivity.
Qed.

Definition convert_word (w : string) : option string :=
  match shift_word num str ox oy w with Some v => scale_word num str k v | None => None end.

Lemma clean_has : forall w a b, clean w -> In a letters -> In b ("("%char :: letters) -> a <> b ->
  has a w = true -> has b w = false.
Proof.
  intros w a b C A B N H. apply has_not. intros I. apply N. apply (C a b A B); [apply has_In; exact H|exact I].
Qed.

Ltac inl := unfold letters; simpl; tauto.

Lemma convert_assign : forall w v d d1 d',
  clean w -> crel ox oy k d d' -> convert_word w = Some v -> assign num d w = Some d1 ->
  exists d1', assign num d' v = Some d1' /\ crel ox oy k d1 d1'.
Proof.
  intros w v d d1 d' C R CV AS. unfold convert_word in CV.
  destruct (has "X" w) eqn:HX.
  { assert (M : motion_word w = None) by (apply (motion_word_letter w "X"); [inl|apply has_In; exact HX]).
    assert (HP : has "(" w = false) by (apply (clean_has w "X" "("); [exact C|inl|inl|discriminate|exact HX]).
    assert (HY : has "Y" w = false) by (apply (clean_has w "X" "Y"); [exact C|inl|inl|discriminate|exact HX]).
    unfold shift_word in CV. unfold assign in AS. rewrite M, HP, HX in AS. rewrite HX, HY in CV.
    destruct (num (rest w)) as [q|]; [|discriminate]. inversion AS; subst; clear AS.
    unfold scale_word in CV. rewrite !letter_has in CV by inl. cbn [Ascii.eqb Bool.eqb rest] in CV.
    destruct (proj1 FA (q - ox)%Q) as (r & N1 & E1). rewrite N1 in CV. inversion CV; subst; clear CV.
    destruct (proj1 FA (r * k)%Q) as (r2 & N2 & E2).
    eexists; split.
    - unfold assign. cbn [motion_word String.eqb Ascii.eqb Bool.eqb]. rewrite !letter_has by inl.
      cbn [Ascii.eqb Bool.eqb rest]. rewrite N2. reflexivity.
    - destruct R as (R1 & R2 & R3 & R4 & R5 & R6 & R7). repeat (split; [assumption || (cbn; rewrite E2, E1; reflexivity)|]). exact R7. }
  destruct (has "Y" w) eqn:HY.
  { assert (M : motion_word w = None) by (apply (motion_word_letter w "Y"); [inl|apply has_In; exact HY]).
    assert (HP : has "(" w = false) by (apply (clean_has w "Y" "("); [exact C|inl|inl|discriminate|exact HY]).
    unfold shift_word in CV. unfold assign in AS. rewrite M, HP, HX, HY in AS. rewrite HX, HY in CV.
    destruct (num (rest w)) as [q|]; [|discriminate]. inversion AS; subst; clear AS.
    unfold scale_word in CV. rewrite !letter_has in CV by inl. cbn [Ascii.eqb Bool.eqb rest] in CV.
    destruct (proj1 FA (q - oy)%Q) as (r & N1 & E1). rewrite N1 in CV. inversion CV; subst; clear CV.
    destruct (proj1 FA (r * k)%Q) as (r2 & N2 & E2).
    eexists; split.
    - unfold assign. cbn [motion_word String.eqb Ascii.eqb Bool.eqb]. rewrite !letter_has by inl.
      cbn [Ascii.eqb Bool.eqb rest]. rewrite N2. reflexivity.
    - destruct R as (R1 & R2 & R3 & R4 & R5 & R6 & R7). repeat (split; [assumption || (cbn; rewrite E2, E1; reflexivity)|]). exact R7. }
  unfold shift_word in CV. rewrite HX, HY in CV. unfold scale_word in CV. rewrite HX, HY in CV.
  destruct (has "I" w) eqn:HI.
  { assert (M : motion_word w = None) by (apply (motion_word_letter w "I"); [inl|apply has_In; exact HI]).
    assert (HP : has "(" w = false) by (apply (clean_has w "I" "("); [exact C|inl|inl|discriminate|exact HI]).
    assert (HZ : has "Z" w = false) by (apply (clean_has w "I" "Z"); [exact C|inl|inl|discriminate|exact HI]).
    assert (HJ : has "J" w = false) by (apply (clean_has w "I" "J"); [exact C|inl|inl|discriminate|exact HI]).
    unfold assign in AS. rewrite M, HP, HX, HY, HZ, HI in AS. rewrite HJ in CV.
    destruct (num (rest w)) as [q|]; [|discriminate]. inversion AS; subst; clear AS. inversion CV; subst; clear CV.
    destruct (proj1 FA (q * k)%Q) as (r2 & N2 & E2).
    eexists; split.
    - unfold assign. cbn [motion_word String.eqb Ascii.eqb Bool.eqb]. rewrite !letter_has by inl.
      cbn [Ascii.eqb Bool.eqb rest]. rewrite N2. reflexivity.
    - destruct R as (R1 & R2 & R3 & R4 & R5 & R6 & R7). repeat (split; [assumption || (cbn; rewrite E2; reflexivity)|]). exact R7. }
  destruct (has "J" w) eqn:HJ.
  { assert (M : motion_word w = None) by (apply (motion_word_letter w "J"); [inl|apply has_In; exact HJ]).
    assert (HP : has "(" w = false) by (apply (clean_has w "J" "("); [exact C|inl|inl|discriminate|exact HJ]).
    assert (HZ : has "Z" w = false) by (apply (clean_has w "J" "Z"); [exact C|inl|inl|discriminate|exact HJ]).
    unfold assign in AS. rewrite M, HP, HX, HY, HZ, HI, HJ in AS.
    destruct (num (rest w)) as [q|]; [|discriminate]. inversion AS; subst; clear AS. inversion CV; subst; clear CV.
    destruct (proj1 FA (q * k)%Q) as (r2 & N2 & E2).
    eexists; split.
    - unfold assign. cbn [motion_word String.eqb Ascii.eqb Bool.eqb]. rewrite !letter_has by inl.
      cbn [Ascii.eqb Bool.eqb rest]. rewrite N2. reflexivity.
    - destruct R as (R1 & R2 & R3 & R4 & R5 & R6 & R7). repeat (split; [assumption || (cbn; rewrite E2; reflexivity)|]). exact R7. }
  inversion CV; subst; clear CV. unfold assign in *. rewrite HX, HY, HI, HJ in *.
  destruct R as (R1 & R2 & R3 & R4 & R5 & R6 & R7).
  destruct (motion_word v) as [g|].
  { inversion AS; subst. eexists; split; [reflexivity|]. repeat (split; [assumption || reflexivity|]). exact R7. }
  destruct (has "(" v).
  { inversion AS; subst. eexists; split; [reflexivity|]. repeat (split; [assumption || reflexivity|]). exact R7. }
  destruct (has "Z" v).
  { destruct (num (rest v)) as [q|]; [|discriminate]. inversion AS; subst.
    eexists; split; [reflexivity|]. repeat (split; [assumption || reflexivity|]). exact R7. }
  destruct (has "K" v).
  { destruct (num (rest v)) as [q|]; [|discriminate]. inversion AS; subst.
    eexists; split; [reflexivity|]. repeat (split; [assumption || reflexivity|]). cbn; reflexivity. }
  inversion AS; subst. eexists; split; [reflexivity|]. repeat (split; [assumption || reflexivity|]). exact R7.
Qed.

Lemma convert_words_alt : forall ws vs, convert_words num str ox oy k ws = Some vs ->
  Forall2 (fun w v => convert_word w = Some v) ws vs.
Proof.
  unfold convert_words, convert_word. induction ws as [|w ws IH]; intros vs H; simpl in H.
  - inversion H; constructor.
  - destruct (shift_word num str ox oy w) as [u|] eqn:S1; [|discriminate].
    destruct (map_words (shift_word num str ox oy) ws) as [us|]; [|discriminate].
    simpl in H. destruct (scale_word num str k u) as [v|] eqn:S2; [|discriminate].
    destruct (map_words (scale_word num str k) us) as [vs'|] eqn:S3; [|discriminate].
    inversion H; subst. constructor; [rewrite S1; exact S2|]. apply IH. reflexivity.
Qed.

Lemma convert_parse : forall ws vs, Forall2 (fun w v => convert_word w = Some v) ws vs ->
  Forall clean ws -> forall d d' c, crel ox oy k d d' -> parse_words num d ws = Some c ->
  exists c', parse_words num d' vs = Some c' /\ crel ox oy k c c'.
Proof.
  induction 1 as [|w v ws vs CV F IH]; intros CL d d' c R P; simpl in P.
  - inversion P; subst. exists d'; split; [reflexivity|exact R].
  - inversion CL; subst. destruct (assign num d w) as [d1|] eqn:A; [|discriminate].
    destruct (convert_assign w v d d1 d' H1 R CV A) as (d1' & A' & R').
    destruct (IH H2 _ _ _ R' P) as (c' & P' & R''). exists c'; split; [|exact R''].
    simpl. rewrite A'. exact P'.
Qed.

Lemma convert_line : forall ws vs c, convert_words num str ox oy k ws = Some vs -> Forall clean ws ->
  parse_words num no_command ws = Some c ->
  exists c', parse_words num no_command vs = Some c' /\ crel ox oy k c c'.
Proof.
  intros ws vs c H CL P. apply convert_words_alt in H.
  apply (convert_parse ws vs H CL no_command no_command c); [|exact P]. repeat split.
Qed.
End Convert.

Lemma crel_ctype : forall ox oy k c c', crel ox oy k c c' -> ctype c' = ctype c.
Proof. intros ox oy k c c' R; apply R. Qed.

Lemma image_step : forall ox oy k g c c' p p', crel ox oy k c c' ->
  (g = G02 \/ g = G03 -> cI c <> None /\ cJ c <> None) ->
  peq p' (place ox oy k p) ->
  image ox oy k (make_block g c p) (make_block g c' p').
Proof.
  intros ox oy k g c c' p p' (R1 & R2 & R3 & R4 & R5 & R6 & R7) A (PX & PY & PZ).
  unfold image. cbn [btype bstart bend]. split; [reflexivity|]. split; [repeat split; assumption|]. split.
  - unfold make_block, peq, place; cbn. unfold orel in *. repeat split.
    + destruct (cX c), (cX c'); first [tauto | exact PX].
    + destruct (cY c), (cY c'); first [tauto | exact PY].
    + destruct (cZ c), (cZ c'); first [tauto | exact PZ].
  - intros G. change (g = G02 \/ g = G03) in G. destruct (A G) as (NI & NJ).
    unfold orel in R5, R6. destruct (cI c) as [i|] eqn:EI; [|congruence]. destruct (cJ c) as [j|] eqn:EJ; [|congruence].
    destruct (cI c') as [i'|] eqn:EI'; [|tauto]. destruct (cJ c') as [j'|] eqn:EJ'; [|tauto].
    assert (C1 : forall c p i j, cI c = Some i -> cJ c = Some j ->
              px (bcenter (make_block g c p)) = (px p + i)%Q /\ py (bcenter (make_block g c p)) = (py p + j)%Q).
    { intros c0 p0 i0 j0 I0 J0. unfold make_block; cbn [bcenter]. rewrite I0, J0. destruct G; subst; split; reflexivity. }
    destruct (C1 c p i j EI EJ) as (-> & ->). destruct (C1 c' p' i' j' EI' EJ') as (-> & ->).
    change (px (place ox oy k p)) with ((px p - ox) * k)%Q in PX.
    change (py (place ox oy k p)) with ((py p - oy) * k)%Q in PY.
    rewrite PX, PY, R5, R6. split; ring.
Qed.

Lemma place_peq : forall ox oy k p q, ~ (k == 0)%Q -> (peq (place ox oy k p) (place ox oy k q) <-> peq p q).
Proof.
  intros ox oy k p q K. unfold peq, place, px, py, pz; cbn. split.
  - intros (A & B & C). apply Qmult_inj_r in A; [|exact K]. apply Qmult_inj_r in B; [|exact K]. repeat split; lra.
  - intros (A & B & C). rewrite A, B, C. repeat split; reflexivity.
Qed.

Lemma image_idle : forall ox oy k b b', ~ (k == 0)%Q -> image ox oy k b b' -> idle b' = idle b.
Proof.
  intros ox oy k b b' K (T & S & E & _). unfold idle. rewrite T. f_equal.
  destruct (same_pos (bstart b) (bend b)) eqn:P.
  - apply same_pos_peq in P. apply same_pos_peq. apply (place_peq ox oy k) in P; [|exact K].
    eapply peq_trans; [exact S|]. eapply peq_trans; [exact P|]. apply peq_sym; exact E.
  - apply same_pos_false in P. apply same_pos_false. intros C. apply P. apply (place_peq ox oy k); [exact K|].
    eapply peq_trans; [apply peq_sym; exact S|]. eapply peq_trans; [exact C|exact E].
Qed.

Lemma image_blocks_prev : forall ox oy k cs cs' b b', ~ (k == 0)%Q ->
  Forall2 (crel ox oy k) cs cs' -> arcs_complete cs -> image ox oy k b b' ->
  Forall2 (image ox oy k) (blocks_from (Some b) cs) (blocks_from (Some b') cs').
Proof.
  intros ox oy k cs cs' b b' K F. revert b b'.
  induction F as [|c c' cs cs' R F IH]; intros b b' A I; simpl; [constructor|].
  assert (A' : arcs_complete cs) by (intros x Hx; apply A; right; exact Hx).
  unfold generate. rewrite (crel_ctype _ _ _ _ _ R). destruct (ctype c) as [g|] eqn:T; [|apply IH; assumption].
  assert (IM : image ox oy k (make_block g c (bend b)) (make_block g c' (bend b'))).
  { apply image_step; [exact R| |apply I]. intros G. apply (A c (or_introl eq_refl)).
    destruct G; subst; tauto. }
  rewrite (image_idle ox oy k _ _ K IM). destruct (idle _); [apply IH; assumption|].
  constructor; [exact IM|]. apply IH; assumption.
Qed.

Lemma image_blocks : forall ox oy k cs cs', ~ (k == 0)%Q ->
  Forall2 (crel ox oy k) cs cs' -> arcs_complete cs -> starts_placed cs ->
  Forall2 (image ox oy k) (blocks_from None cs) (blocks_from None cs').
Proof.
  intros ox oy k cs cs' K F. induction F as [|c c' cs cs' R F IH]; intros A S; [constructor|].
  assert (A' : arcs_complete cs) by (intros x Hx; apply A; right; exact Hx).
  cbn [starts_placed] in S. pose proof (crel_ctype _ _ _ _ _ R) as T.
  destruct (ctype c) as [g|] eqn:TC.
  - destruct S as (-> & NX & NY). rewrite !leading_rapid by congruence.
    unfold generate. rewrite T, TC. apply image_blocks_prev; try assumption.
    apply image_step; [exact R|intros [? | ?]; discriminate|].
    destruct R as (_ & RX & RY & RZ & _). unfold orel in *. unfold peq, place; cbn.
    destruct (cX c); [|congruence]. destruct (cY c); [|congruence].
    destruct (cX c'); [|tauto]. destruct (cY c'); [|tauto].
    repeat split; try assumption. destruct (cZ c), (cZ c'); cbn; tauto || (try exact RZ; reflexivity).
  - cbn [blocks_from]. unfold generate. rewrite TC, T. apply IH; assumption.
Qed.

Lemma convert_blocks : forall num str ox oy k lines lines' cs,
  faithful num str -> ~ (k == 0)%Q ->
  Forall2 (fun ws vs => convert_words num str ox oy k ws = Some vs) lines lines' ->
  Forall (Forall clean) lines ->
  Forall2 (fun ws c => parse_words num no_command ws = Some c) lines cs ->
  arcs_complete cs -> starts_placed cs ->
  exists cs', Forall2 (fun vs c => parse_words num no_command vs = Some c) lines' cs' /\
    Forall2 (image ox oy k) (blocks_from None cs) (blocks_from None cs').
Proof.
  intros num str ox oy k lines lines' cs FA K CV CL P AC SP.
  assert (G : exists cs', Forall2 (fun vs c => parse_words num no_command vs = Some c) lines' cs' /\
                          Forall2 (crel ox oy k) cs cs').
  { clear AC SP. revert cs P. induction CV as [|ws vs lines lines' C CV IH]; intros cs P.
    - inversion P; subst. exists []; split; constructor.
    - inversion P as [|? c ? cs0 PW PR]; subst. inversion CL; subst.
      destruct (convert_line num str ox oy k FA ws vs c C H1 PW) as (c' & P' & R).
      destruct (IH H2 _ PR) as (cs' & F1 & F2). exists (c' :: cs'). split; constructor; assumption. }
  destruct G as (cs' & F1 & F2). exists cs'; split; [exact F1|]. apply image_blocks; assumption.
Qed.
