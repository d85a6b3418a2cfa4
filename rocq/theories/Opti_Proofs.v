(* Proofs about labels and names. *)
Require Import List String Ascii ZArith Bool Arith Lia FinFun.
Require Import DecimalString Decimal DecimalNat.
Require Import Verif.Opti_Model Verif.Opti_Spec.
Import ListNotations.
Open Scope string_scope.

(* ---------- strings ---------- *)
Lemma app_nil_r_s s : s ++ "" = s.
Proof. induction s; simpl; congruence. Qed.
Lemma app_assoc_s a b c : (a ++ b) ++ c = a ++ (b ++ c).
Proof. induction a; simpl; congruence. Qed.
Lemma app_inj_r a b c : a ++ b = a ++ c -> b = c.
Proof. induction a; simpl; intro H; [trivial|]. inversion H; auto. Qed.
Lemma las_app a b :
  list_ascii_of_string (a ++ b) = (list_ascii_of_string a ++ list_ascii_of_string b)%list.
Proof. induction a; simpl; congruence. Qed.
Lemma las_inj a b : list_ascii_of_string a = list_ascii_of_string b -> a = b.
Proof.
  intro H. rewrite <- (string_of_list_ascii_of_string a), <- (string_of_list_ascii_of_string b).
  now rewrite H.
Qed.
Lemma app_inj_l a b c : a ++ c = b ++ c -> a = b.
Proof.
  intro H. apply las_inj. apply (f_equal list_ascii_of_string) in H.
  rewrite !las_app in H. eapply app_inv_tail; eauto.
Qed.
Lemma app_eq_nil_s a b : a ++ b = "" -> a = "" /\ b = "".
Proof. destruct a; simpl; [auto|discriminate]. Qed.
Lemma chars_app P a b : chars P (a ++ b) <-> chars P a /\ chars P b.
Proof. unfold chars. rewrite las_app. apply Forall_app. Qed.
Lemma chars_cons P c s : chars P (String c s) <-> P c /\ chars P s.
Proof. unfold chars; simpl; split; intro H; [inversion H; auto|constructor; tauto]. Qed.
Lemma chars_nil P : chars P "".
Proof. constructor. Qed.

Lemma isdigit_c_spec c : isdigit_c c = true <-> digit c.
Proof.
  unfold isdigit_c, digit. rewrite andb_true_iff, !Nat.leb_le. tauto.
Qed.
Lemma isalpha_spec c : isalpha c = true <-> letter c.
Proof.
  unfold isalpha, letter. rewrite orb_true_iff, !andb_true_iff, !Nat.leb_le. tauto.
Qed.
Lemma digit_not_letter c : digit c -> isalpha c = false.
Proof.
  intro H. destruct (isalpha c) eqn:E; [|trivial]. apply isalpha_spec in E.
  unfold digit, letter in *. lia.
Qed.
Lemma all_chars_spec s : all_chars isdigit_c s = true <-> chars digit s.
Proof.
  induction s as [|c s IH]; simpl.
  - split; intro; [apply chars_nil|trivial].
  - rewrite andb_true_iff, isdigit_c_spec, IH, chars_cons. tauto.
Qed.
Lemma isdigit_spec s : isdigit s = true <-> number_string s.
Proof.
  unfold isdigit, number_string. destruct s as [|c s].
  - split; [discriminate|intros [H _]; congruence].
  - rewrite all_chars_spec. split; [intro; split; [discriminate|trivial]|tauto].
Qed.

(* ---------- groupby ---------- *)
Definition uniform (b : bool) (s : string) : Prop := chars (fun c => isalpha c = b) s.
Definition ends (b : bool) (s : string) : Prop := exists p c, s = p ++ String c "" /\ isalpha c = b.

Lemma concat_cons x l : String.concat "" (x :: l) = x ++ String.concat "" l.
Proof. destruct l as [|y l]; simpl; [now rewrite app_nil_r_s|trivial]. Qed.

Lemma groupby_nil_iff f s : groupby f s = [] -> s = "".
Proof.
  destruct s as [|c s]; simpl; [trivial|].
  destruct (groupby f s) as [|[|d g] gs]; try discriminate.
  destruct (Bool.eqb _ _); discriminate.
Qed.

Lemma groupby_uniform b s : s <> "" -> uniform b s -> groupby isalpha s = [s].
Proof.
  induction s as [|c s IH]; intros Hn Hu; [congruence|].
  apply chars_cons in Hu as [Hc Hu]. simpl.
  destruct s as [|d s]; [reflexivity|].
  rewrite IH; [|discriminate|exact Hu].
  apply chars_cons in Hu as [Hd _]. rewrite Hc, Hd, Bool.eqb_reflx. reflexivity.
Qed.

Lemma ends_cons b c s : s <> "" -> ends b (String c s) -> ends b s.
Proof.
  intros Hn (p & d & E & Hd). destruct p as [|e p]; simpl in E; inversion E; subst.
  - congruence.
  - exists p, d; auto.
Qed.

Lemma groupby_split b p idx : idx <> "" -> uniform b idx -> (p = "" \/ ends (negb b) p) ->
  exists g gs, groupby isalpha (p ++ idx) = ((g :: gs) ++ [idx])%list /\ String.concat "" (g :: gs) = p
  \/ groupby isalpha (p ++ idx) = [idx] /\ p = "".
Proof.
  intros Hn Hu. induction p as [|c p IH]; intros Hp.
  - simpl. exists "", []. right. split; [|trivial]. eapply groupby_uniform; eauto.
  - destruct Hp as [Hp|Hp]; [discriminate|].
    destruct p as [|d p].
    + destruct Hp as (q & e & E & He).
      assert (c = e) as ->.
      { destruct q as [|x q]; simpl in E; inversion E; subst; [trivial|].
        destruct q; discriminate. }
      simpl. rewrite (groupby_uniform b) by assumption.
      destruct idx as [|i idx]; [congruence|].
      apply chars_cons in Hu as [Hi _].
      rewrite He, Hi. replace (Bool.eqb (negb b) b) with false by (now destruct b).
      exists (String e ""), []. left. auto.
    + destruct IH as (g & gs & [[E Ec]|[E Ec]]).
      { right. eapply ends_cons; [discriminate|exact Hp]. }
      * change (String c (String d p) ++ idx) with (String c (String d p ++ idx)).
        cbn [groupby]. rewrite E. cbn [List.app].
        destruct g as [|x g].
        -- exfalso. rewrite concat_cons in Ec.
           assert (forall f s l, groupby f s <> "" :: l) as F.
           { clear. intros f s l. destruct s as [|c s]; simpl; [discriminate|].
             destruct (groupby f s) as [|[|d g] gs]; try discriminate.
             destruct (Bool.eqb _ _); discriminate. }
           eapply F. exact E.
        -- destruct (Bool.eqb _ _).
           ++ exists (String c (String x g)), gs. left. split; [reflexivity|].
              rewrite concat_cons in Ec |- *. simpl in *. congruence.
           ++ exists (String c ""), (String x g :: gs). left. split; [reflexivity|].
              rewrite concat_cons, Ec. reflexivity.
      * discriminate.
Qed.

Lemma decompose s : s <> "" -> exists b p idx, s = p ++ idx /\ idx <> "" /\ uniform b idx /\
  (p = "" \/ ends (negb b) p).
Proof.
  induction s as [|c s IH]; [congruence|]. intros _.
  destruct s as [|d s].
  - exists (isalpha c), "", (String c ""). repeat split; try discriminate; auto.
    apply chars_cons. split; [trivial|apply chars_nil].
  - destruct IH as (b & p & idx & E & Hn & Hu & Hp); [discriminate|].
    destruct Hp as [->|Hp].
    + simpl in E. destruct (Bool.bool_dec (isalpha c) b) as [Hc|Hc].
      * exists b, "", (String c idx). rewrite E. repeat split; try discriminate; auto.
        apply chars_cons; auto.
      * exists b, (String c ""), idx. rewrite E. repeat split; auto. right.
        exists "", c. split; [reflexivity|]. destruct (isalpha c), b; simpl; congruence.
    + exists b, (String c p), idx. rewrite E. repeat split; auto. right.
      destruct Hp as (q & e & -> & He). exists (String c q), e. auto.
Qed.

Lemma decompose_digit p idx :
  number_string idx -> (p = "" \/ ends_in_letter p) ->
  exists g gs, groupby isalpha (p ++ idx) = g :: gs /\ last (g :: gs) "" = idx /\
    String.concat "" (removelast (g :: gs)) = p.
Proof.
  intros [Hn Hd] Hp.
  assert (uniform false idx) as Hu.
  { unfold uniform, chars. eapply Forall_impl; [|exact Hd]. intros; now apply digit_not_letter. }
  destruct (groupby_split false p idx Hn Hu) as (g & gs & [[E Ec]|[E Ec]]).
  { destruct Hp as [->|(q & c & -> & Hc)]; [auto|]. right. exists q, c. split; [trivial|].
    now apply isalpha_spec. }
  - exists g, (gs ++ [idx])%list. rewrite E. split; [reflexivity|].
    rewrite app_comm_cons, last_last, removelast_last. auto.
  - exists idx, []. subst. auto.
Qed.

(* ---------- numbers as strings ---------- *)
Lemma sou_digits d : chars digit (NilEmpty.string_of_uint d).
Proof.
  induction d; simpl; [apply chars_nil|..]; apply chars_cons; split; trivial;
    split; apply Nat.leb_le; reflexivity.
Qed.
Lemma to_uint_not_nil n : Nat.to_uint n <> Nil.
Proof.
  intro H. destruct n as [|n]; [discriminate|].
  assert (Nat.of_uint (Nat.to_uint (S n)) = 0) as E by now rewrite H.
  rewrite Unsigned.of_to in E. discriminate.
Qed.
Lemma py_str_number n : number_string (py_str n).
Proof.
  unfold py_str. split; [|apply sou_digits].
  pose proof (to_uint_not_nil n). destruct (Nat.to_uint n); simpl; congruence.
Qed.
Lemma int_acc_uint d : forall acc,
  int_acc acc (NilEmpty.string_of_uint d) = Nat.of_uint_acc d acc.
Proof.
  induction d; intro acc; [reflexivity|..]; cbn [NilEmpty.string_of_uint int_acc Nat.of_uint_acc];
    rewrite IHd; f_equal; rewrite Nat.tail_mul_spec; unfold digit_val;
    match goal with |- context [nat_of_ascii ?c] =>
      let v := eval compute in (nat_of_ascii c) in change (nat_of_ascii c) with v end;
    cbn [Nat.mul Nat.add Nat.sub]; lia.
Qed.
Lemma int_str n : py_int (py_str n) = n.
Proof.
  unfold py_int, py_str. rewrite int_acc_uint. apply (Unsigned.of_to n).
Qed.
Lemma py_str_inj a b : py_str a = py_str b -> a = b.
Proof. intro H. rewrite <- (int_str a), <- (int_str b). now rewrite H. Qed.

(* ---------- _make_label ---------- *)
Lemma mem_spec s l : mem s l = true <-> In s l.
Proof.
  unfold mem. rewrite existsb_exists. split.
  - intros (x & Hx & E). apply String.eqb_eq in E. congruence.
  - intro H. exists s. split; [trivial|apply String.eqb_refl].
Qed.
Lemma mem_false s l : mem s l = false <-> ~ In s l.
Proof. rewrite <- mem_spec. destruct (mem s l); split; congruence. Qed.

Lemma make_label_number fuel labels stem num :
  number_string num -> (stem = "" \/ ends_in_letter stem) ->
  make_label (S fuel) labels (stem ++ num) =
    if mem (stem ++ num) labels then make_label fuel labels (stem ++ py_str (py_int num + 1))
    else Ok (stem ++ num, (labels ++ [(stem ++ num)%string])%list).
Proof.
  intros Hn Hs. destruct (decompose_digit stem num Hn Hs) as (g & gs & E & El & Ec).
  cbn [make_label]. rewrite E. cbv zeta. rewrite El, Ec.
  apply isdigit_spec in Hn. now rewrite Hn.
Qed.

Lemma make_label_letter fuel labels stem : ends_in_letter stem ->
  make_label (S fuel) labels stem = make_label fuel labels (stem ++ py_str 0).
Proof.
  intros (q & c & E & Hc).
  destruct (decompose stem) as (b & p & idx & Es & Hn & Hu & Hp).
  { rewrite E. destruct q; discriminate. }
  assert (b = true) as ->.
  { apply isalpha_spec in Hc. assert (chars (fun c => isalpha c = b) idx) as H by exact Hu.
    assert (exists i d, idx = i ++ String d "" ) as (i & d & Ei).
    { clear -Hn. induction idx as [|x idx IH]; [congruence|].
      destruct idx as [|y idx]; [exists "", x; reflexivity|].
      destruct IH as (i & d & ->); [discriminate|]. exists (String x i), d. reflexivity. }
    rewrite Ei in H. apply chars_app in H as [_ H]. apply chars_cons in H as [H _].
    assert (c = d) as ->; [|congruence].
    rewrite Ei, E, <- app_assoc_s in Es. apply (f_equal list_ascii_of_string) in Es.
    rewrite !las_app in Es. apply app_inj_tail in Es. tauto. }
  destruct (groupby_split true p idx Hn Hu Hp) as (g & gs & [[G Ec]|[G Ec]]).
  - cbn [make_label]. rewrite <- Es in G. rewrite G. cbv zeta. cbn [List.app].
    rewrite app_comm_cons, last_last.
    destruct (isdigit idx) eqn:Ed; [|reflexivity].
    exfalso. apply isdigit_spec in Ed as [_ Hd].
    destruct idx as [|x idx]; [congruence|].
    apply chars_cons in Hu as [Hx _]. apply chars_cons in Hd as [Hd _].
    apply digit_not_letter in Hd. congruence.
  - cbn [make_label]. rewrite <- Es in G. rewrite G. cbv zeta. cbn [last].
    destruct (isdigit idx) eqn:Ed; [|reflexivity].
    exfalso. apply isdigit_spec in Ed as [_ Hd].
    destruct idx as [|x idx]; [congruence|].
    apply chars_cons in Hu as [Hx _]. apply chars_cons in Hd as [Hd _].
    apply digit_not_letter in Hd. congruence.
Qed.

Lemma numbered_nodup stem v0 k : NoDup (map (fun i => stem ++ py_str (v0 + i)) (seq 0 k)).
Proof.
  apply FinFun.Injective_map_NoDup; [|apply seq_NoDup].
  intros a b H. apply app_inj_r, py_str_inj in H. lia.
Qed.

Lemma make_label_run stem labels v0 : (stem = "" \/ ends_in_letter stem) ->
  forall fuel k, (forall i, i < k -> In (stem ++ py_str (v0 + i)) labels) ->
  List.length labels < fuel + k ->
  exists j, k <= j /\ make_label fuel labels (stem ++ py_str (v0 + k)) =
      Ok (stem ++ py_str (v0 + j), (labels ++ [(stem ++ py_str (v0 + j))%string])%list) /\
    forall i, i < j -> In (stem ++ py_str (v0 + i)) labels.
Proof.
  intros Hs fuel. induction fuel as [|fuel IH]; intros k Hk Hl.
  - exfalso. simpl in Hl.
    assert (List.length (map (fun i => stem ++ py_str (v0 + i)) (seq 0 k)) <= List.length labels).
    { apply NoDup_incl_length; [apply numbered_nodup|].
      intros x Hx. apply in_map_iff in Hx as (i & <- & Hi). apply in_seq in Hi. apply Hk. lia. }
    rewrite map_length, seq_length in H. lia.
  - rewrite make_label_number; [|apply py_str_number|exact Hs].
    destruct (mem (stem ++ py_str (v0 + k)) labels) eqn:E.
    + rewrite int_str. replace (v0 + k + 1) with (v0 + S k) by lia.
      destruct (IH (S k)) as (j & Hj & R & A).
      * intros i Hi. destruct (Nat.eq_dec i k) as [->|]; [now apply mem_spec|apply Hk; lia].
      * lia.
      * exists j. split; [lia|]. auto.
    + exists k. auto.
Qed.

Lemma make_label_ok fuel : forall labels r l labels',
  make_label fuel labels r = Ok (l, labels') ->
  labels' = (labels ++ [l])%list /\ ~ In l labels.
Proof.
  induction fuel as [|fuel IH]; intros labels r l labels' H; [discriminate|].
  cbn [make_label] in H. destruct (groupby isalpha r) as [|g gs]; [discriminate|].
  cbv zeta in H. destruct (isdigit _).
  - destruct (mem r labels) eqn:E; [eauto|].
    inversion H; subst. split; [trivial|]. now apply mem_false.
  - eauto.
Qed.

Lemma make_label_diverges labels fuel : forall p idx,
  idx <> "" -> uniform false idx -> ~ chars digit idx -> (p = "" \/ ends true p) ->
  make_label fuel labels (p ++ idx) = Err RecursionError.
Proof.
  induction fuel as [|fuel IH]; intros p idx Hn Hu Hd Hp; [reflexivity|].
  assert (isdigit idx = false) as Ed.
  { destruct (isdigit idx) eqn:E; [|trivial]. apply isdigit_spec in E as [_ E]. tauto. }
  assert (make_label fuel labels ((p ++ idx) ++ py_str 0) = Err RecursionError) as R.
  { rewrite app_assoc_s. apply IH.
    - destruct idx; simpl; congruence.
    - apply chars_app. split; [exact Hu|]. apply chars_cons. split; [reflexivity|apply chars_nil].
    - intro H. apply chars_app in H. tauto.
    - exact Hp. }
  destruct (groupby_split false p idx Hn Hu Hp) as (g & gs & [[G Ec]|[G Ec]]);
    cbn [make_label]; rewrite G; cbv zeta; cbn [List.app].
  - rewrite app_comm_cons, last_last, Ed. exact R.
  - cbn [last]. rewrite Ed. exact R.
Qed.

Lemma sound_or_diverges r : r <> "" ->
  sound_request r \/ exists p idx, r = p ++ idx /\ idx <> "" /\ uniform false idx /\
    ~ chars digit idx /\ (p = "" \/ ends true p).
Proof.
  intro Hr. destruct (decompose r Hr) as (b & p & idx & E & Hn & Hu & Hp).
  destruct b.
  - left. exists r, "". rewrite app_nil_r_s. repeat split; auto using chars_nil. right.
    assert (exists i d, idx = i ++ String d "") as (i & d & Ei).
    { clear -Hn. induction idx as [|x idx IH]; [congruence|].
      destruct idx as [|y idx]; [exists "", x; reflexivity|].
      destruct IH as (i & d & ->); [discriminate|]. exists (String x i), d. reflexivity. }
    exists (p ++ i), d. split; [now rewrite app_assoc_s, <- Ei|].
    apply isalpha_spec. rewrite Ei in Hu. apply chars_app in Hu as [_ Hu].
    apply chars_cons in Hu. tauto.
  - destruct (isdigit idx) eqn:Ed.
    + left. exists p, idx. apply isdigit_spec in Ed as [_ Ed]. repeat split; auto.
      destruct Hp as [->|(q & c & -> & Hc)]; [auto|]. right. exists q, c.
      split; [trivial|now apply isalpha_spec].
    + right. exists p, idx. repeat split; auto.
      intro H. assert (isdigit idx = true) by (apply isdigit_spec; split; auto). congruence.
Qed.

Lemma make_label_sound labels r : sound_request r ->
  exists l, make_label (List.length labels + 3) labels r = Ok (l, (labels ++ [l])%list) /\
   exists stem num num', r = stem ++ num /\ chars digit num /\ (stem = "" \/ ends_in_letter stem) /\
     l = stem ++ num' /\ number_string num' /\
     ((l = r /\ num <> "") \/
      exists j v0, num' = py_str (v0 + j) /\ (num = "" /\ v0 = 0 \/ num <> "" /\ In r labels /\ v0 = py_int num + 1)
        /\ (forall i, i < j -> In (stem ++ py_str (v0 + i)) labels)).
Proof.
  intros (stem & num & E & Hr & Hd & Hs).
  destruct num as [|c num].
  - rewrite app_nil_r_s in E. subst r.
    destruct Hs as [Hs|Hs]; [congruence|].
    replace (List.length labels + 3) with (S (List.length labels + 2)) by lia.
    rewrite make_label_letter by exact Hs.
    destruct (make_label_run stem labels 0 (or_intror Hs) (List.length labels + 2) 0)
      as (j & _ & R & A); [intros; lia|lia|].
    simpl in R, A. exists (stem ++ py_str j). split; [exact R|].
    exists stem, "", (py_str j). rewrite app_nil_r_s.
    repeat split; auto using chars_nil; try apply py_str_number.
    right. exists j, 0. simpl. auto 6.
  - assert (number_string (String c num)) as Hn by (split; [discriminate|trivial]).
    subst r. replace (List.length labels + 3) with (S (List.length labels + 2)) by lia.
    rewrite make_label_number by assumption.
    destruct (mem (stem ++ String c num) labels) eqn:Em.
    + set (v0 := py_int (String c num) + 1).
      destruct (make_label_run stem labels v0 Hs (List.length labels + 2) 0)
        as (j & _ & R & A); [intros; lia|lia|].
      rewrite Nat.add_0_r in R.
      exists (stem ++ py_str (v0 + j)). split; [exact R|].
      exists stem, (String c num), (py_str (v0 + j)).
      repeat split; auto; try apply py_str_number.
      right. exists j, v0. split; [reflexivity|]. split; [|exact A].
      right. repeat split; [discriminate|now apply mem_spec].
    + exists (stem ++ String c num). split; [reflexivity|].
      exists stem, (String c num), (String c num). repeat split; auto; try discriminate.
      left. split; [reflexivity|discriminate].
Qed.

Lemma make_label_fuel fuel : forall fuel' labels r x,
  fuel <= fuel' -> make_label fuel labels r = Ok x -> make_label fuel' labels r = Ok x.
Proof.
  induction fuel as [|fuel IH]; intros fuel' labels r x Hf H; [discriminate|].
  destruct fuel' as [|fuel']; [lia|]. cbn [make_label] in *.
  destruct (groupby isalpha r) as [|g gs]; [discriminate|]. cbv zeta in *.
  destruct (isdigit _); [destruct (mem r labels)|]; auto; apply IH; auto; lia.
Qed.

Lemma make_label_needs_sound fuel labels r x : make_label fuel labels r = Ok x -> sound_request r.
Proof.
  intro H. destruct (String.string_dec r "") as [->|Hr].
  { destruct fuel; discriminate. }
  destruct (sound_or_diverges r Hr) as [S|(p & idx & -> & Hn & Hu & Hd & Hp)]; [trivial|].
  rewrite make_label_diverges in H by assumption. discriminate.
Qed.

Lemma make_labels_nodup fuel reqs : forall labels out,
  make_labels fuel labels reqs = Ok out ->
  NoDup labels -> NoDup (labels ++ out) /\ List.length out = List.length reqs.
Proof.
  induction reqs as [|r rs IH]; intros labels out H Hl; simpl in H.
  - inversion H. rewrite app_nil_r. auto.
  - destruct (make_label fuel labels r) as [[l labels']|] eqn:E; [|discriminate].
    destruct (make_labels fuel labels' rs) as [ls|] eqn:E2; [|discriminate].
    inversion H; subst out. apply make_label_ok in E as [-> Hn].
    apply IH in E2 as [N L].
    + rewrite <- app_assoc in N. simpl. auto.
    + apply NoDup_rev in Hl. rewrite <- (rev_involutive (labels ++ [l])).
      apply NoDup_rev. rewrite rev_app_distr. simpl. constructor; [|trivial].
      now rewrite <- in_rev.
Qed.

Lemma make_labels_each fuel reqs : forall labels out,
  make_labels fuel labels reqs = Ok out ->
  forall i r, nth_error reqs i = Some r ->
  exists l, nth_error out i = Some l /\ sound_request r /\
    exists stem num num', r = stem ++ num /\ chars digit num /\ l = stem ++ num' /\ number_string num' /\
      (stem = "" \/ ends_in_letter stem).
Proof.
  induction reqs as [|r0 rs IH]; intros labels out H i r Hi; simpl in H.
  - destruct i; discriminate.
  - destruct (make_label fuel labels r0) as [[l labels']|] eqn:E; [|discriminate].
    destruct (make_labels fuel labels' rs) as [ls|] eqn:E2; [|discriminate].
    inversion H; subst out. destruct i as [|i]; simpl in Hi |- *.
    + inversion Hi; subst r0. exists l. split; [trivial|].
      pose proof (make_label_needs_sound _ _ _ _ E) as S. split; [exact S|].
      destruct (make_label_sound labels r S) as (l2 & R & stem & num & num' & A & B & C & D & F & _).
      apply (make_label_fuel _ (fuel + (List.length labels + 3))) in E; [|lia].
      apply (make_label_fuel _ (fuel + (List.length labels + 3))) in R; [|lia].
      rewrite E in R. inversion R; subst l2. exists stem, num, num'. auto 6.
    + eapply IH; eauto.
Qed.

(* ---------- _add_label ---------- *)
Lemma no_us_split l1 l2 n1 n2 : no_underscore l1 -> no_underscore l2 ->
  add_label n1 l1 = add_label n2 l2 -> n1 = n2 /\ l1 = l2.
Proof.
  unfold add_label. intros H1 H2 E.
  apply (f_equal list_ascii_of_string) in E. rewrite !las_app in E. simpl in E.
  unfold no_underscore, chars in *.
  remember (list_ascii_of_string l1) as a. remember (list_ascii_of_string l2) as b.
  remember (list_ascii_of_string n1) as x. remember (list_ascii_of_string n2) as y.
  assert (x = y /\ a = b) as [Ex Ea].
  { clear - H1 H2 E. revert y E. induction x as [|c x IH]; intros [|d y] E; simpl in E.
    - inversion E; auto.
    - inversion E; subst. exfalso. rewrite Forall_app in H1. destruct H1 as [_ H1].
      inversion H1; congruence.
    - inversion E; subst. exfalso. rewrite Forall_app in H2. destruct H2 as [_ H2].
      inversion H2; congruence.
    - inversion E; subst. destruct (IH y) as [-> ->]; auto. }
  subst. split; apply las_inj; auto.
Qed.
