(** Proofs about reading the paths of an svg figure. *)
From Coq Require Import ZArith QArith List Bool Lia Lqa Qfield.
From Verif Require Import Path_Model Path_Spec.
Import ListNotations.
Local Open Scope Q_scope.

Definition horner (acc : Z) (l : list nat) : Z :=
  fold_left (fun a d => (a * 10 + Z.of_nat d)%Z) l acc.

Arguments horner : simpl never.

Definition nodigit (s : list ch) : Prop := match s with Dg _ :: _ => False | _ => True end.

Lemma digs_map l : forall acc n r, nodigit r ->
  digs acc n (map Dg l ++ r) = (horner acc l, (n + length l)%nat, r).
Proof.
  induction l as [|d l IH]; intros acc n r H; simpl.
  - rewrite Nat.add_0_r. destruct r as [|[] r]; simpl in *; easy.
  - rewrite IH by assumption. unfold horner. simpl. repeat f_equal. lia.
Qed.

Lemma pow_pos n : ~ inject_Z (10 ^ Z.of_nat n) == 0.
Proof.
  intro H. assert (0 < 10 ^ Z.of_nat n)%Z by (apply Z.pow_pos_nonneg; lia).
  unfold Qeq in H. simpl in H. lia.
Qed.

Lemma pow_S n : inject_Z (10 ^ Z.of_nat (S n)) == 10 * inject_Z (10 ^ Z.of_nat n).
Proof.
  rewrite Nat2Z.inj_succ, Z.pow_succ_r by lia. rewrite inject_Z_mult. reflexivity.
Qed.

Lemma horner_val l : forall acc,
  inject_Z (horner acc l) == inject_Z acc * inject_Z (10 ^ Z.of_nat (length l)) + ival l.
Proof.
  induction l as [|d l IH]; intros acc.
  - unfold horner. simpl. ring_simplify. unfold inject_Z. unfold Qeq. simpl. lia.
  - change (horner acc (d :: l)) with (horner (acc * 10 + Z.of_nat d) l).
    rewrite IH. cbn [length ival]. rewrite pow_S, inject_Z_plus, inject_Z_mult.
    change (inject_Z 10) with 10. ring.
Qed.

Lemma fval_val l : ival l / inject_Z (10 ^ Z.of_nat (length l)) == fval l.
Proof.
  induction l as [|d l IH].
  - reflexivity.
  - cbn [length ival fval]. rewrite <- IH, pow_S. pose proof (pow_pos (length l)).
    field. assumption.
Qed.

Definition tf (w : wnum) : bool := match fp w with Some _ => true | None => false end.

Definition uval (w : wnum) : Q := ival (ip w) + match fp w with Some f => fval f | None => 0 end.

Lemma eval_u_text w : written w ->
  exists v, eval_u (map Dg (ip w) ++ match fp w with Some f => Dot :: map Dg f | None => [] end) = Some v
    /\ isf v = tf w /\ val v == uval w.
Proof.
  unfold written, uval, tf, eval_u. destruct w as [ng i [f|]]; simpl; intros H.
  - rewrite digs_map by exact I. simpl.
    rewrite <- (app_nil_r (map Dg f)). rewrite digs_map by exact I. rewrite Nat.add_0_l.
    destruct (Nat.eqb (length i + length f) 0) eqn:E.
    + apply Nat.eqb_eq in E. destruct i, f; simpl in *; try lia. congruence.
    + eexists. split; [reflexivity|]. split; [reflexivity|]. simpl.
      rewrite horner_val. rewrite <- fval_val. rewrite horner_val.
      pose proof (pow_pos (length f)). change (inject_Z 0) with 0. field. assumption.
  - rewrite digs_map by exact I. simpl. destruct i as [|d i]; [easy|].
    destruct H as [H|H].
    + simpl. destruct d; [easy|]. eexists. split; [reflexivity|]. split; [reflexivity|].
      cbn [val]. rewrite horner_val. change (inject_Z 0) with 0. simpl. ring.
    + subst i. simpl. destruct d.
      * eexists. split; [reflexivity|]. split; reflexivity.
      * eexists. split; [reflexivity|]. split; [reflexivity|].
        cbn [val]. rewrite horner_val. change (inject_Z 0) with 0. simpl. ring.
Qed.

Lemma eval_nominus s : match s with Minus :: _ => False | _ => True end -> eval s = eval_u s.
Proof. destruct s as [|[] s]; easy. Qed.

Lemma eval_text w : written w ->
  exists v, eval (wtext w) = Some v /\ isf v = tf w /\ val v == wval w.
Proof.
  intros H. destruct (eval_u_text w H) as (v & E & F & V).
  set (u := map Dg (ip w) ++ match fp w with Some f => Dot :: map Dg f | None => [] end) in *.
  assert (N : eval u = eval_u u).
  { apply eval_nominus. unfold u. destruct (ip w), (fp w); simpl; easy. }
  unfold wtext. fold u. unfold wval. fold (uval w). destruct (neg w).
  - simpl. rewrite N, E. simpl. eexists. split; [reflexivity|]. simpl. split; [assumption|].
    rewrite V. reflexivity.
  - simpl. rewrite N, E. eauto.
Qed.

(* text *)

Definition nosp (s : list ch) : Prop := ~ In Sp s.

Lemma dg_nosp l : nosp (map Dg l).
Proof. intros H. apply in_map_iff in H. destruct H as (d & H & _). discriminate. Qed.

Lemma wtext_nosp w : nosp (wtext w).
Proof.
  unfold nosp, wtext. intros H. apply in_app_or in H. destruct H as [H|H].
  - destruct (neg w); simpl in H; intuition discriminate.
  - apply in_app_or in H. destruct H as [H|H]; [exact (dg_nosp _ H)|].
    destruct (fp w) as [f|]; simpl in H; [|easy]. destruct H as [H|H]; [discriminate|].
    exact (dg_nosp _ H).
Qed.

Lemma wtext_nonempty w : written w -> wtext w <> [].
Proof.
  unfold written, wtext. intros H E. apply app_eq_nil in E. destruct E as [_ E].
  apply app_eq_nil in E. destruct E as [E F]. destruct (fp w); [discriminate|].
  destruct (ip w); [easy|discriminate].
Qed.

Lemma replace_app a b : replace (a ++ b) = replace a ++ replace b.
Proof. induction a as [|[] a IH]; simpl; congruence. Qed.

Lemma replace_dg l : replace (map Dg l) = map Dg l.
Proof. induction l; simpl; congruence. Qed.

Lemma replace_wtext w : replace (wtext w) = (if neg w then [Sp] else []) ++ wtext w.
Proof.
  unfold wtext. rewrite !replace_app, replace_dg.
  assert (replace match fp w with Some f => Dot :: map Dg f | None => [] end =
          match fp w with Some f => Dot :: map Dg f | None => [] end) as ->.
  { destruct (fp w); simpl; [rewrite replace_dg|]; reflexivity. }
  destruct (neg w); reflexivity.
Qed.

Definition tail_text (r : list (sep * wnum)) : list ch :=
  concat (map (fun y => Sp :: wtext (snd y)) r).

Lemma replace_tail r : Forall fits r ->
  replace (concat (map (fun y => stext (fst y) ++ wtext (snd y)) r)) = tail_text r.
Proof.
  induction 1 as [|[s w] r H _ IH]; [reflexivity|].
  unfold tail_text in *. cbn [map concat fst snd]. rewrite !replace_app, IH, replace_wtext.
  unfold fits in H. simpl in H.
  destruct s, (neg w); simpl; try reflexivity; destruct H as [H1 H2];
    (discriminate (H1 eq_refl) || discriminate (H2 eq_refl)).
Qed.

Lemma lstrip_head s : match s with Sp :: _ => False | _ => True end -> lstrip s = s.
Proof. destruct s as [|[] s]; easy. Qed.

Lemma nosp_head s r : s <> [] -> nosp s -> match s ++ r with Sp :: _ => False | _ => True end.
Proof.
  destruct s as [|c s]; [easy|]. intros _ H. simpl. destruct c; try exact I.
  apply H. left. reflexivity.
Qed.

Lemma lstrip_rev a t : t <> [] -> nosp t -> lstrip (rev (a ++ t)) = rev (a ++ t).
Proof.
  intros N H. apply lstrip_head. rewrite rev_app_distr. apply nosp_head.
  - intros E. apply N. rewrite <- (rev_involutive t), E. reflexivity.
  - intros K. apply H. apply in_rev. exact K.
Qed.

Lemma tail_end x r : written x -> Forall (fun y => written (snd y)) r ->
  exists a t, wtext x ++ tail_text r = a ++ t /\ t <> [] /\ nosp t.
Proof.
  intros Hx H. induction r as [|y r _] using rev_ind.
  - exists [], (wtext x). unfold tail_text. simpl. rewrite app_nil_r.
    split; [reflexivity|]. split; [apply wtext_nonempty; assumption|apply wtext_nosp].
  - apply Forall_app in H. destruct H as [_ H]. inversion H as [|? ? Hy _]; subst.
    exists (wtext x ++ tail_text r ++ [Sp]), (wtext (snd y)). split.
    + unfold tail_text. rewrite map_app, concat_app. simpl. rewrite app_nil_r.
      rewrite <- !app_assoc. reflexivity.
    + split; [apply wtext_nonempty; assumption|apply wtext_nosp].
Qed.

Lemma replace_blanks n : replace (repeat Sp n) = repeat Sp n.
Proof. induction n as [|n IH]; [reflexivity|]. simpl. rewrite IH. reflexivity. Qed.

Lemma lstrip_blanks n s : lstrip (repeat Sp n ++ s) = lstrip s.
Proof. induction n as [|n IH]; [reflexivity|exact IH]. Qed.

Lemma rev_blanks n : rev (repeat Sp n) = repeat Sp n.
Proof.
  induction n as [|n IH]; [reflexivity|]. simpl. rewrite IH. clear IH.
  induction n as [|n IH]; [reflexivity|]. simpl. rewrite IH. reflexivity.
Qed.

Lemma strip_padded b x r : proper x r ->
  strip (replace (padded b (x, r))) = wtext x ++ tail_text r.
Proof.
  intros [Hx Hr]. unfold padded, text_of. cbn [fst snd].
  rewrite !replace_app, !replace_blanks, replace_wtext.
  rewrite replace_tail by (eapply Forall_impl; [|exact Hr]; intros ? [_ ?]; assumption).
  unfold strip. rewrite lstrip_blanks.
  assert (lstrip ((((if neg x then [Sp] else []) ++ wtext x) ++ tail_text r) ++ repeat Sp (snd b)) =
          (wtext x ++ tail_text r) ++ repeat Sp (snd b)) as ->.
  { rewrite <- !app_assoc.
    assert (lstrip (wtext x ++ tail_text r ++ repeat Sp (snd b)) = wtext x ++ tail_text r ++ repeat Sp (snd b)) as K
      by (apply lstrip_head, nosp_head; [apply wtext_nonempty; assumption|apply wtext_nosp]).
    destruct (neg x); simpl; assumption. }
  rewrite (rev_app_distr (wtext x ++ tail_text r)), rev_blanks, lstrip_blanks.
  destruct (tail_end x r) as (a & t & E & N & S);
    [assumption|eapply Forall_impl; [|exact Hr]; intros ? [? _]; assumption|].
  rewrite E, lstrip_rev by assumption. apply rev_involutive.
Qed.

Lemma split_nosp t : nosp t -> split t = [t].
Proof.
  induction t as [|c t IH]; intros H; [reflexivity|].
  assert (nosp t) by (intros K; apply H; right; assumption).
  destruct c; simpl; try rewrite IH by assumption; try reflexivity.
  destruct H. left. reflexivity.
Qed.

Lemma split_cut t s : nosp t -> split (t ++ Sp :: s) = t :: split s.
Proof.
  induction t as [|c t IH]; intros H; [reflexivity|].
  assert (nosp t) by (intros K; apply H; right; assumption).
  destruct c; simpl; try rewrite IH by assumption; try reflexivity.
  destruct H. left. reflexivity.
Qed.

Lemma split_text x r : split (wtext x ++ tail_text r) = map wtext (x :: map snd r).
Proof.
  revert x. induction r as [|y r IH]; intros x.
  - unfold tail_text. simpl. rewrite app_nil_r. apply split_nosp, wtext_nosp.
  - change (tail_text (y :: r)) with (Sp :: wtext (snd y) ++ tail_text r).
    rewrite split_cut by apply wtext_nosp. rewrite IH. reflexivity.
Qed.

Lemma evals_text l : Forall written l ->
  exists vs, evals (map wtext l) = Some vs /\
    Forall2 (fun v w => isf v = tf w /\ val v == wval w) vs l.
Proof.
  induction 1 as [|w l H _ (vs & E & F)].
  - exists []. split; [reflexivity|constructor].
  - destruct (eval_text w H) as (v & Ev & Fv & Vv). exists (v :: vs). simpl. rewrite Ev, E.
    split; [reflexivity|]. constructor; auto.
Qed.

Lemma proper_nums x r : proper x r -> Forall written (x :: map snd r).
Proof.
  intros [H K]. constructor; [assumption|]. apply Forall_map.
  eapply Forall_impl; [|exact K]. intros ? [? _]. assumption.
Qed.

Lemma numbers_text b x r : proper x r ->
  exists vs, numbers (padded b (x, r)) = Some vs /\
    Forall2 (fun v w => isf v = existsb tf (x :: map snd r) /\ val v == wval w) vs (x :: map snd r).
Proof.
  intros H. unfold numbers. rewrite strip_padded by assumption. rewrite split_text.
  destruct (evals_text _ (proper_nums _ _ H)) as (vs & E & F).
  rewrite E. simpl option_map. eexists. split; [reflexivity|].
  assert (B : existsb isf vs = existsb tf (x :: map snd r)).
  { clear E. induction F as [|v w vs l [P _] _ IH]; [reflexivity|]. simpl. congruence. }
  unfold array. rewrite B. set (e := existsb tf (x :: map snd r)). clearbody e.
  clear E B. induction F as [|v w vs l [_ P] _ IH]; simpl; constructor; auto.
Qed.

(* all of one type *)
Lemma numbers_uniform pad x r b : proper x r -> Forall (fun w => tf w = b) (x :: map snd r) ->
  exists vs, numbers (padded pad (x, r)) = Some vs /\
    Forall2 (fun v w => isf v = b /\ val v == wval w) vs (x :: map snd r).
Proof.
  intros H K. destruct (numbers_text pad x r H) as (vs & E & F). exists vs. split; [assumption|].
  assert (existsb tf (x :: map snd r) = b) as <-; [|assumption].
  inversion K as [|? ? K1 K2]; subst. simpl. destruct (tf x) eqn:T; [reflexivity|].
  simpl. clear - K2. induction K2 as [|w l P _ IH]; simpl; [reflexivity|].
  rewrite P. exact IH.
Qed.

(* lines *)

Lemma scan_body s r : Forall isbody s ->
  scan (s ++ r) = (s ++ fst (scan r), snd (scan r)).
Proof.
  induction 1 as [|c s H _ IH]; simpl.
  - destruct (scan r); reflexivity.
  - destruct c; simpl in H; try easy; rewrite IH; reflexivity.
Qed.

Lemma wtext_body w : Forall isbody (wtext w).
Proof.
  unfold wtext. apply Forall_app. split; [destruct (neg w); repeat constructor|].
  apply Forall_app. split.
  - apply Forall_map, Forall_forall. intros; exact I.
  - destruct (fp w); constructor; [exact I|]. apply Forall_map, Forall_forall. intros; exact I.
Qed.

Lemma text_body x r : Forall isbody (text_of x r).
Proof.
  unfold text_of. apply Forall_app. split; [apply wtext_body|].
  induction r as [|[s w] r IH]; simpl; [constructor|]. rewrite <- app_assoc. apply Forall_app. split.
  - destruct s; repeat constructor.
  - apply Forall_app. split; [apply wtext_body|assumption].
Qed.

Lemma text_nonempty x r : proper x r -> text_of x r <> [].
Proof.
  intros [H _] E. unfold text_of in E. apply app_eq_nil in E. exact (wtext_nonempty x H (proj1 E)).
Qed.

Lemma blanks_body n : Forall isbody (repeat Sp n).
Proof. induction n; simpl; constructor; [exact I|assumption]. Qed.

Lemma padded_body b l : Forall isbody (padded b l).
Proof.
  unfold padded. apply Forall_app. split; [apply blanks_body|].
  apply Forall_app. split; [apply text_body|apply blanks_body].
Qed.

Lemma padded_nonempty b x r : proper x r -> padded b (x, r) <> [].
Proof.
  intros H E. unfold padded in E. apply app_eq_nil in E. destruct E as [_ E].
  apply app_eq_nil in E. exact (text_nonempty x r H (proj1 E)).
Qed.

Lemma scan_line l b x r rest : proper x r -> fst (scan rest) = [] ->
  scan (L l :: padded b (x, r) ++ rest) = ([], (l, padded b (x, r)) :: snd (scan rest)).
Proof.
  intros H E. cbn [scan]. rewrite scan_body by apply padded_body. rewrite E, app_nil_r.
  pose proof (padded_nonempty b x r H). destruct (padded b (x, r)); [easy|reflexivity].
Qed.

Fixpoint segs (bs : list (nat * nat)) (ls : list (bool * wline)) : list (letter * list ch) :=
  match ls with
  | [] => []
  | (rel, l) :: r => (if rel then CRel else CAbs, padded (hd (0, 0)%nat bs) l) :: segs (tl bs) r
  end.

Lemma scan_junk s : Forall (fun c => ~ isbody c) s -> scan s = ([], []).
Proof.
  induction 1 as [|c s H _ IH]; [reflexivity|].
  destruct c; simpl in H; try tauto; simpl; rewrite IH; reflexivity.
Qed.

Lemma scan_segs ls junk : Forall (fun c => ~ isbody c) junk -> forall bs,
  Forall (fun l : wline => proper (fst l) (snd l)) (map snd ls) ->
  scan (segs_text bs ls ++ junk) = ([], segs bs ls).
Proof.
  intros J. induction ls as [|[rel [x r]] ls IH]; intros bs H; [apply scan_junk; assumption|].
  inversion H as [|? ? P H']; subst. cbn [segs_text segs].
  rewrite <- app_comm_cons, <- app_assoc.
  rewrite scan_line; [|assumption|rewrite IH by assumption; reflexivity].
  rewrite IH by assumption. reflexivity.
Qed.

Lemma put_val x p : isf x = isf p -> isf (put x p) = isf x /\ val (put x p) = val x + val p.
Proof. intros E. unfold put. simpl. rewrite E. destruct (isf p); simpl; auto. Qed.

Lemma do_segs b ls : forall bs px py rest x y,
  Forall (fun l : wline => (proper (fst l) (snd l) /\ length (nums l) = 6%nat) /\
                            Forall (fun w => tf w = b) (nums l)) (map snd ls) ->
  isf px = b -> isf py = b -> val px == x -> val py == y ->
  exists out, do_lines (py :: px :: rest) (segs bs ls) = Ok (rev out ++ py :: px :: rest)
    /\ same out (absolute x y (map (fun l => (fst l, map wval (nums (snd l)))) ls)).
Proof.
  induction ls as [|[rel [w0 r]] ls IH]; intros bs px py rest x y H Hx Hy Vx Vy.
  - exists []. split; [reflexivity|constructor].
  - inversion H as [|? ? [[P N] U] H']; subst. cbn [map segs do_lines].
    unfold nums in N, U. cbn [fst snd] in N, U, P.
    destruct (numbers_uniform (hd (0, 0)%nat bs) _ _ _ P U) as (vs & E & F).
    unfold do_line. cbn [fst snd]. rewrite E.
    unfold nums at 1. cbn [fst snd].
    destruct r as [|[s1 w1] [|[s2 w2] [|[s3 w3] [|[s4 w4] [|[s5 w5] [|? ?]]]]]]; try discriminate N.
    cbn [map snd] in *.
    inversion F as [|v0 ? ? ? [I0 V0] F0]; subst. inversion F0 as [|v1 ? ? ? [I1 V1] F1]; subst.
    inversion F1 as [|v2 ? ? ? [I2 V2] F2]; subst. inversion F2 as [|v3 ? ? ? [I3 V3] F3]; subst.
    inversion F3 as [|v4 ? ? ? [I4 V4] F4]; subst. inversion F4 as [|v5 ? ? ? [I5 V5] F5]; subst.
    inversion F5; subst. destruct rel.
    2: {
      destruct (IH (tl bs) v4 v5 (v3 :: v2 :: v1 :: v0 :: py :: px :: rest) (wval w4) (wval w5))
        as (out & Eo & So); [assumption|congruence|congruence|assumption|assumption|].
      exists ([v0; v1; v2; v3; v4; v5] ++ out). split.
      - change (rev [v0; v1; v2; v3; v4; v5] ++ py :: px :: rest) with
          (v5 :: v4 :: v3 :: v2 :: v1 :: v0 :: py :: px :: rest).
        rewrite Eo. rewrite rev_app_distr, <- app_assoc. reflexivity.
      - cbn [fst snd absolute]. apply Forall2_app; [|exact So]. repeat constructor; assumption. }
    cbn [shift].
    destruct (put_val v0 px) as [A0 B0]; [congruence|]. destruct (put_val v1 py) as [A1 B1]; [congruence|].
    destruct (put_val v2 px) as [A2 B2]; [congruence|]. destruct (put_val v3 py) as [A3 B3]; [congruence|].
    destruct (put_val v4 px) as [A4 B4]; [congruence|]. destruct (put_val v5 py) as [A5 B5]; [congruence|].
    set (seg := [put v0 px; put v1 py; put v2 px; put v3 py; put v4 px; put v5 py]).
    destruct (IH (tl bs) (put v4 px) (put v5 py)
                 (put v3 py :: put v2 px :: put v1 py :: put v0 px :: py :: px :: rest)
                 (x + wval w4) (y + wval w5)) as (out & Eo & So).
    + assumption.
    + congruence.
    + congruence.
    + rewrite B4, V4, Vx. ring.
    + rewrite B5, V5, Vy. ring.
    + exists (seg ++ out). split.
      * change (rev seg ++ py :: px :: rest) with
          (put v5 py :: put v4 px :: put v3 py :: put v2 px :: put v1 py :: put v0 px :: py :: px :: rest).
        rewrite Eo. rewrite rev_app_distr, <- app_assoc. reflexivity.
      * cbn [fst snd absolute]. apply Forall2_app; [|exact So].
        unfold seg. repeat constructor; first [rewrite B0|rewrite B1|rewrite B2|rewrite B3|rewrite B4|rewrite B5];
          first [rewrite V0|rewrite V1|rewrite V2|rewrite V3|rewrite V4|rewrite V5];
          first [rewrite Vx|rewrite Vy]; ring.
Qed.

Lemma uniform_tf p : uniform p -> exists b, Forall (fun w => tf w = b) (all_nums p).
Proof.
  intros [H|H]; [exists true|exists false]; (eapply Forall_impl; [|exact H]);
    unfold tf; intros w K; simpl in K; destruct (fp w); congruence.
Qed.

Lemma path_points bs p junk : path_proper p -> uniform p -> Forall (fun c => ~ isbody c) junk ->
  exists out, path (path_text bs p ++ junk) = Ok out /\ same out (meaning p).
Proof.
  intros [[Pm Nm] Ps] U J. destruct (uniform_tf p U) as [b Ub].
  unfold all_nums in Ub. apply Forall_app in Ub. destruct Ub as [Um Us].
  destruct p as [[w0 r] ls]. cbn [fst snd] in *.
  unfold path, lines, path_text. cbn [fst snd].
  rewrite <- app_comm_cons, <- app_assoc.
  assert (Q : Forall (fun l : wline => proper (fst l) (snd l)) (map snd ls))
    by (eapply Forall_impl; [|exact Ps]; intros ? [? _]; assumption).
  rewrite scan_line; [|assumption|rewrite scan_segs by assumption; reflexivity].
  rewrite scan_segs by assumption. cbn [snd do_lines].
  unfold nums in Nm, Um. cbn [fst snd] in Nm, Um.
  destruct (numbers_uniform (hd (0, 0)%nat bs) _ _ _ Pm Um) as (vs & E & F).
  unfold do_line. cbn [fst snd]. rewrite E.
  unfold meaning, nums at 1. cbn [fst snd].
  destruct r as [|[s1 w1] [|? ?]]; try discriminate Nm. cbn [map snd] in *.
  inversion F as [|v0 ? ? ? [I0 V0] F0]; subst. inversion F0 as [|v1 ? ? ? [I1 V1] F1]; subst.
  inversion F1; subst. cbn [rev app].
  destruct (do_segs (isf v0) ls (tl bs) v0 v1 [] (wval w0) (wval w1)) as (out & Eo & So); auto.
  - clear - Ps Us. induction Ps as [|l ks H _ IH]; constructor.
    + cbn [map concat] in Us. apply Forall_app in Us. tauto.
    + apply IH. cbn [map concat] in Us. apply Forall_app in Us. tauto.
  - rewrite Eo. exists (v0 :: v1 :: out). split.
    + rewrite rev_app_distr, rev_involutive. reflexivity.
    + constructor; [assumption|]. constructor; [assumption|]. exact So.
Qed.

Lemma shift_rest n : forall px py l, skipn n (shift n px py l) = skipn n l.
Proof.
  induction n as [|n IH]; intros px py l; [reflexivity|].
  destruct l as [|v l]; [reflexivity|]. simpl. apply IH.
Qed.

Lemma shift_length n : forall px py l, length (shift n px py l) = length l.
Proof.
  induction n as [|n IH]; intros px py l; [reflexivity|].
  destruct l as [|v l]; [reflexivity|]. simpl. rewrite IH. reflexivity.
Qed.

Lemma same_length l m : same l m -> length l = length m.
Proof. induction 1; simpl; congruence. Qed.

Lemma same_skipn n : forall l m, same l m -> same (skipn n l) (skipn n m).
Proof.
  induction n as [|n IH]; intros l m H; [exact H|].
  inversion H; subst; [constructor|]. apply IH. assumption.
Qed.

Lemma path_rest bs m l : proper (fst m) (snd m) -> length (nums m) = 2%nat -> proper (fst l) (snd l) ->
  exists out, path (path_text bs (m, [(true, l)])) = Ok out /\
    length out = (2 + length (nums l))%nat /\
    same (skipn 8 out) (skipn 6 (map wval (nums l))).
Proof.
  intros Pm Nm Pl. destruct m as [w0 r], l as [u0 q]. cbn [fst snd] in *.
  unfold path, lines, path_text. cbn [fst snd].
  rewrite <- (app_nil_r (segs_text _ _)).
  assert (P : Forall (fun l : wline => proper (fst l) (snd l)) (map snd [(true, (u0, q))]))
    by (constructor; [exact Pl|constructor]).
  pose proof (scan_segs [(true, (u0, q))] [] (Forall_nil _) (tl bs) P) as SC.
  rewrite scan_line; [|assumption|rewrite SC; reflexivity].
  rewrite SC. cbn [snd segs do_lines].
  destruct (numbers_text (hd (0, 0)%nat bs) _ _ Pm) as (vs & E & F).
  destruct (numbers_text (hd (0, 0)%nat (tl bs)) _ _ Pl) as (us & G & K).
  unfold do_line. cbn [fst snd]. rewrite E.
  unfold nums in Nm. cbn [fst snd] in Nm.
  destruct r as [|[s1 w1] [|? ?]]; try discriminate Nm. cbn [map snd] in F.
  inversion F as [|v0 ? ? ? _ F0]; subst. inversion F0 as [|v1 ? ? ? _ F1]; subst.
  inversion F1; subst. cbn [rev app]. rewrite G.
  eexists. split; [reflexivity|].
  rewrite rev_app_distr, rev_involutive. cbn [rev app].
  assert (S : same us (map wval (u0 :: map snd q))).
  { clear - K. unfold same. induction K as [|v w us l [_ H] _ IH]; simpl; constructor; assumption. }
  split.
  - cbn [length]. rewrite shift_length. unfold nums. cbn [fst snd].
    rewrite <- (map_length wval). rewrite (same_length _ _ S). reflexivity.
  - change (skipn 8 (v0 :: v1 :: shift 6 v0 v1 us)) with (skipn 6 (shift 6 v0 v1 us)).
    rewrite shift_rest. apply same_skipn. exact S.
Qed.

(* a separator before a minus sign *)

Lemma evals_bad l : In [] l -> evals l = None.
Proof.
  induction l as [|t l IH]; intros H; [easy|]. simpl. destruct H as [->|H].
  - reflexivity.
  - rewrite IH by assumption. destruct (eval t); reflexivity.
Qed.

Lemma split_app_sp a b : split (a ++ Sp :: b) = split a ++ split b.
Proof.
  induction a as [|c a IH]; [reflexivity|].
  destruct c; simpl; rewrite IH; try reflexivity; destruct (split a) eqn:E; try reflexivity;
    exfalso; clear - E; destruct a as [|[] a]; simpl in E; try discriminate;
    destruct (split a); discriminate.
Qed.

Lemma split_ne a : split a <> [].
Proof. destruct a as [|[] a]; simpl; try discriminate; destruct (split a); discriminate. Qed.

Lemma lstrip_app a b : (exists c, In c a /\ c <> Sp) -> lstrip (a ++ b) = lstrip a ++ b.
Proof.
  induction a as [|c a IH]; intros (d & H & N); [easy|].
  destruct c; simpl; try reflexivity. apply IH. exists d. split; [|assumption].
  destruct H; [congruence|assumption].
Qed.

Lemma lstrip_keeps a : (exists c, In c a /\ c <> Sp) -> exists c, In c (lstrip a) /\ c <> Sp.
Proof.
  induction a as [|c a IH]; intros (d & H & N); [easy|].
  destruct c; simpl; try (exists d; split; assumption).
  apply IH. exists d. split; [|assumption]. destruct H; [congruence|assumption].
Qed.

Lemma strip_app a m b : (exists c, In c a /\ c <> Sp) -> (exists c, In c b /\ c <> Sp) ->
  exists a' b', strip (a ++ m ++ b) = a' ++ m ++ b'.
Proof.
  intros Ha Hb. unfold strip. rewrite lstrip_app by assumption.
  rewrite !rev_app_distr. rewrite <- app_assoc. rewrite lstrip_app.
  - rewrite !rev_app_distr, !rev_involutive. rewrite <- app_assoc. eauto.
  - destruct Hb as (c & H & N). exists c. split; [apply -> in_rev; assumption|assumption].
Qed.

Lemma replace_in c s : In c s -> c <> Comma -> In c (replace s).
Proof.
  induction s as [|e s IH]; intros H N; [easy|].
  destruct H as [->|H].
  - destruct c; simpl; auto; congruence.
  - destruct e; simpl; auto.
Qed.

Lemma comma_minus a b s : s <> Nothing -> (exists d, In (Dg d) a) ->
  numbers (a ++ stext s ++ Minus :: b) = None.
Proof.
  intros Hs [d Hd]. unfold numbers. rewrite !replace_app.
  assert (replace (stext s) = [Sp]) as -> by (destruct s; easy).
  change (replace (Minus :: b)) with ([Sp] ++ (Minus :: replace b)).
  rewrite (app_assoc [Sp] [Sp]).
  destruct (strip_app (replace a) ([Sp] ++ [Sp]) (Minus :: replace b)) as (a' & b' & E).
  - exists (Dg d). split; [apply replace_in; [assumption|discriminate]|discriminate].
  - exists Minus. split; [left; reflexivity|discriminate].
  - rewrite E. simpl. rewrite split_app_sp. rewrite evals_bad; [reflexivity|].
    apply in_or_app. right. left. reflexivity.
Qed.

Lemma comma_minus_path a b s : s <> Nothing -> (exists d, In (Dg d) a) ->
  Forall isbody a -> Forall isbody b ->
  path (L MAbs :: a ++ stext s ++ Minus :: b) = SyntaxError.
Proof.
  intros Hs Hd Ba Bb. unfold path, lines. cbn [scan].
  rewrite <- (app_nil_r (a ++ stext s ++ Minus :: b)). rewrite scan_body.
  - cbn [scan fst snd]. rewrite app_nil_r.
    pose proof (comma_minus a b s Hs Hd) as E.
    destruct (a ++ stext s ++ Minus :: b) eqn:K.
    + destruct Hd as [d Hd]. destruct a; [easy|discriminate].
    + cbn [snd do_lines]. unfold do_line. cbn [fst snd]. rewrite E. reflexivity.
  - apply Forall_app. split; [assumption|]. apply Forall_app. split.
    + destruct s; repeat constructor.
    + constructor; [exact I|assumption].
Qed.

(* the file *)

Lemma write_all l outs : Forall2 (fun s o => path s = Ok o) l outs -> write l = (outs, true).
Proof. induction 1 as [|s o l outs H _ IH]; simpl; [reflexivity|]. rewrite H, IH. reflexivity. Qed.

Lemma write_stops l outs s r : Forall2 (fun s o => path s = Ok o) l outs ->
  (forall o, path s <> Ok o) -> write (l ++ s :: r) = (outs, false).
Proof.
  intros H N. induction H as [|t o l outs E _ IH]; simpl.
  - destruct (path s) eqn:K; [destruct (N _ eq_refl)|reflexivity|reflexivity].
  - rewrite E, IH. reflexivity.
Qed.

Lemma write_sound l w ok : write l = (w, ok) ->
  Forall2 (fun s o => path s = Ok o) (firstn (length w) l) w /\
  (ok = true -> length w = length l) /\
  (ok = false -> exists s, nth_error l (length w) = Some s /\ forall o, path s <> Ok o).
Proof.
  revert w ok. induction l as [|s l IH]; intros w ok H; simpl in H.
  - injection H as <- <-. split; [constructor|]. split; [reflexivity|discriminate].
  - destruct (path s) eqn:E.
    + destruct (write l) as [w' ok'] eqn:W. injection H as <- <-.
      destruct (IH _ _ eq_refl) as (A & B & C). split; [constructor; assumption|].
      split; [intros K; simpl; f_equal; auto|exact C].
    + injection H as <- <-. split; [constructor|]. split; [discriminate|].
      intros _. exists s. split; [reflexivity|]. congruence.
    + injection H as <- <-. split; [constructor|]. split; [discriminate|].
      intros _. exists s. split; [reflexivity|]. congruence.
Qed.

Lemma search_first t :
  search t = match find has_paths (firsts 2 t) with Some u => paths_of u | None => [] end.
Proof.
  destruct t as [[|p ps] [|[[|q qs] [|[[|r rs] hs] gs']] gs]]; reflexivity.
Qed.

(* witnesses *)

Ltac wf := repeat match goal with
  | |- _ /\ _ => split
  | |- _ <-> _ => split
  | |- Forall _ _ => constructor; simpl
  | |- _ \/ _ => right; reflexivity
  | |- _ -> _ => intros; discriminate
  | |- _ => first [discriminate|reflexivity]
  end.

Definition n_int (d : nat) : wnum := {| neg := false; ip := [d]; fp := None |}.
Definition n_pt (d e : nat) : wnum := {| neg := false; ip := [d]; fp := Some [e] |}.
Definition cm (w : wnum) : sep * wnum := (AComma, w).

(* M0.5,0.0c1,0,2,0,3,0 *)
Definition p_mixed : wpath :=
  ((n_pt 0 5, [cm (n_pt 0 0)]),
   [(true, (n_int 1, map cm [n_int 0; n_int 2; n_int 0; n_int 3; n_int 0]))]).

Lemma mixed_refuted : exists p, path_proper p /\
  ~ (exists out, path (path_text [] p) = Ok out /\ same out (meaning p)).
Proof.
  exists p_mixed. split.
  - unfold path_proper, proper, written, fits, p_mixed. simpl.
    wf.
  - intros (out & E & S). vm_compute in E. injection E as <-.
    unfold same in S. vm_compute in S.
    inversion S as [|? ? ? ? _ S0]; subst. inversion S0 as [|? ? ? ? _ S1]; subst.
    inversion S1 as [|? ? ? ? K _]; subst. discriminate K.
Qed.

(* M1.0,0.0c1.0,0.0,1.0,0.0,1.0,0.0,1.0,0.0,1.0,0.0,1.0,0.0 *)
Definition p_long : wpath :=
  ((n_pt 1 0, [cm (n_pt 0 0)]),
   [(true, (n_pt 1 0, map cm [n_pt 0 0; n_pt 1 0; n_pt 0 0; n_pt 1 0; n_pt 0 0;
                       n_pt 1 0; n_pt 0 0; n_pt 1 0; n_pt 0 0; n_pt 1 0; n_pt 0 0]))]).

Lemma long_refuted : exists p out, proper (fst (fst p)) (snd (fst p)) /\
  Forall (fun l => proper (fst l) (snd l) /\ length (nums l) = 12%nat) (map snd (snd p)) /\ uniform p /\
  path (path_text [] p) = Ok out /\ ~ same out (meaning_long p).
Proof.
  eexists p_long, _. split; [|split; [|split; [|split; [vm_compute; reflexivity|]]]].
  - unfold proper, written, fits, p_long. simpl.
    wf.
  - unfold proper, written, fits, p_long. simpl.
    wf.
  - left. unfold all_nums, p_long. simpl. repeat constructor; discriminate.
  - intros S. unfold same in S. vm_compute in S.
    do 8 (let K := fresh in inversion S as [|? ? ? ? _ K]; subst; clear S; rename K into S).
    inversion S as [|? ? ? ? K _]; subst. discriminate K.
Qed.

(* the second group holds the only path *)
Lemma second_group_refuted : exists t s, in_tree s t /\ search t = [] /\ exists p, path s = Ok p.
Proof.
  exists (Node [] [Node [] []; Node [[L MAbs; Dg 1; Sp; Dg 2]] []]), [L MAbs; Dg 1; Sp; Dg 2].
  split; [|split; [reflexivity|eexists; vm_compute; reflexivity]].
  apply In_group with (g := Node [[L MAbs; Dg 1; Sp; Dg 2]] []); [right; left; reflexivity|].
  apply In_here. left. reflexivity.
Qed.

Lemma search_in t s : In s (search t) -> in_tree s t.
Proof.
  destruct t as [[|p ps] [|[[|q qs] [|[[|r rs] hs] gs']] gs]]; simpl; try easy; intros H;
    first [ apply In_here; exact H
          | eapply In_group; [left; reflexivity|]; apply In_here; exact H
          | eapply In_group; [left; reflexivity|]; eapply In_group; [left; reflexivity|]; apply In_here; exact H ].
Qed.
