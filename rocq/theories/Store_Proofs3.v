(** Which spline variables transform_primal_splines changes. *)
From Coq Require Import String Ascii Reals List Arith Bool Lia Lra.
From Verif Require Import Spline_Model Store_Model Store_Spec Store_Proofs Store_Proofs2.
From Verif Require Opti_Model Opti_Proofs Opti_Proofs2.
Import ListNotations.
Local Open Scope R_scope.
Local Notation length := List.length.
Local Notation slen := String.length.
Local Notation dget := Opti_Model.dget.
Local Notation dset := Opti_Model.dset.
Local Notation dhas := Opti_Model.dhas.

(* ---------- names ---------- *)

Lemma slen_app : forall a b, slen (a ++ b)%string = (slen a + slen b)%nat.
Proof. induction a as [|c a IH]; intros b; [reflexivity|]. cbn. rewrite IH. reflexivity. Qed.
Lemma prefix_0 : forall k s, (k <= slen s)%nat -> exists r, s = (substring 0 k s ++ r)%string /\ slen (substring 0 k s) = k.
Proof.
  induction k as [|k IH]; intros s H; [exists s; destruct s; split; reflexivity|].
  destruct s as [|c s]; [cbn in H; lia|]. cbn in H. destruct (IH s) as (r & E & L); [lia|].
  exists r. cbn. split; [f_equal; exact E|f_equal; exact L].
Qed.
Lemma sub_seg : forall i s, substring i 3 s = "seg"%string <-> exists p r, s = (p ++ "seg" ++ r)%string /\ slen p = i.
Proof.
  induction i as [|i IH]; intros s; split.
  - intros H. destruct (le_lt_dec 3 (slen s)) as [L|L].
    + destruct (prefix_0 3 s L) as (r & E & _). rewrite H in E. exists ""%string, r. split; [exact E|reflexivity].
    + exfalso. do 3 (destruct s as [|? s]; [cbn in H; discriminate|]). cbn in L. lia.
  - intros (p & r & -> & L). destruct p; [|discriminate]. cbn. destruct r; reflexivity.
  - intros H. destruct s as [|c s]; [cbn in H; discriminate|]. cbn in H. apply IH in H. destruct H as (p & r & -> & L).
    exists (String c p), r. split; [reflexivity|]. cbn. congruence.
  - intros (p & r & -> & L). destruct p as [|c p]; [discriminate|]. cbn in L. cbn. apply IH. exists p, r. split; [reflexivity|congruence].
Qed.
Lemma get_after : forall p t r, String.get (slen p + slen t) (p ++ t ++ r)%string = String.get 0 r.
Proof.
  induction p as [|c p IH]; intros t r; cbn.
  - induction t as [|c t IH]; [reflexivity|]. cbn. exact IH.
  - apply IH.
Qed.
Lemma app_prefix_eq : forall p p' a b, (p ++ a = p' ++ b)%string -> slen p = slen p' -> p = p' /\ a = b.
Proof.
  induction p as [|c p IH]; intros [|c' p'] a b H L; cbn in *; try discriminate; [auto|].
  inv H. inv L. destruct (IH p' a b H2 H0) as [-> ->]. auto.
Qed.
Lemma first_seg_unique : forall n d d', first_seg n d -> first_seg n d' -> d = d'.
Proof.
  intros n d d' (p & r & E & M) (p' & r' & E' & M'). pose proof (M p' (String d' r') E') as A. pose proof (M' p (String d r) E) as B.
  assert (L : slen p = slen p') by lia. rewrite E in E'. destruct (app_prefix_eq _ _ _ _ E' L) as [_ X]. cbn in X. inv X. reflexivity.
Qed.
Lemma digit_of_unique : forall d k k', digit_of d k -> digit_of d k' -> k = k'.
Proof. intros d k k' [_ A] [_ B]. lia. Qed.
Lemma py_digit_spec : forall d, match py_digit d with Ok k => digit_of d k | Raise e => forall k, ~ digit_of d k end.
Proof.
  intros d. unfold py_digit, Opti_Model.isdigit_c, Opti_Model.digit_val, digit_of.
  destruct ((48 <=? nat_of_ascii d)%nat && (nat_of_ascii d <=? 57)%nat)%bool eqn:E.
  - apply andb_true_iff in E. destruct E as [A B]. apply Nat.leb_le in A, B. lia.
  - intros k [H1 H2]. apply andb_false_iff in E. rewrite H2 in E. destruct E as [E|E]; apply Nat.leb_gt in E; lia.
Qed.
Lemma seg_hit_spec : forall segs n,
  match seg_hit segs n with
  | Ok true => selected segs n
  | Ok false => ~ has_seg n \/ exists d k, first_seg n d /\ digit_of d k /\ ~ In k segs
  | Raise _ => unreadable n
  end.
Proof.
  intros segs n. unfold seg_hit. destruct (String.index 0 "seg" n) as [i|] eqn:E.
  - pose proof (index_correct1 _ _ _ _ E) as H1. pose proof (index_correct2 _ _ _ _ E) as H2.
    cbn [slen] in H1. apply sub_seg in H1. destruct H1 as (p & r & En & L).
    assert (M : forall p' r', n = (p' ++ "seg" ++ r')%string -> (slen p <= slen p')%nat).
    { intros p' r' E'. destruct (le_lt_dec (slen p) (slen p')) as [X|X]; [exact X|]. exfalso.
      apply (H2 (slen p')); [lia|lia|]. cbn [slen]. apply sub_seg. exists p', r'. auto. }
    subst i. rewrite En. change 3%nat with (slen "seg"%string) at 1. rewrite get_after. rewrite En in M.
    destruct r as [|d r]; cbn [String.get].
    + split; [exists p, ""%string; reflexivity|]. intros d (p' & r' & E' & M'). pose proof (M' p ""%string eq_refl) as A. pose proof (M p' _ E') as B.
      assert (L : slen p = slen p') by lia. destruct (app_prefix_eq _ _ _ _ E' L) as [_ X]. discriminate.
    + assert (FS : first_seg (p ++ "seg" ++ String d r) d) by (exists p, r; split; [reflexivity|exact M]).
      pose proof (py_digit_spec d) as D. destruct (py_digit d) as [k|e]; cbn [bind].
      * destruct (existsb (Nat.eqb k) segs) eqn:X.
        -- apply existsb_exists in X. destruct X as (k' & I & Ek). apply Nat.eqb_eq in Ek. subst k'. exists d, k. auto.
        -- right. exists d, k. split; [exact FS|]. split; [exact D|]. intros I. assert (T : existsb (Nat.eqb k) segs = true); [|congruence].
           apply existsb_exists. exists k. split; [exact I|apply Nat.eqb_refl].
      * split; [exists p, (String d r); reflexivity|]. intros d' FS'. rewrite (first_seg_unique _ _ _ FS' FS). exact D.
  - left. intros (p & r & En). assert (Q : "seg"%string <> ""%string) by discriminate.
    apply (index_correct3 0 (slen p) "seg"%string n E Q); [lia|].
    cbn [slen]. apply sub_seg. exists p, r. auto.
Qed.
Lemma first_has : forall n d, first_seg n d -> has_seg n.
Proof. intros n d (p & r & E & _). exists p, (String d r). exact E. Qed.
Lemma seg_hit_true : forall segs n, seg_hit segs n = Ok true <-> selected segs n.
Proof.
  intros segs n. pose proof (seg_hit_spec segs n) as H. split; [intros E; rewrite E in H; exact H|].
  intros (d & k & F & D & I). destruct (seg_hit segs n) as [[|]|e]; [reflexivity| |].
  - exfalso. destruct H as [H|(d' & k' & F' & D' & N)]; [apply H, (first_has n d F)|].
    rewrite (first_seg_unique _ _ _ F' F) in D'. rewrite (digit_of_unique _ _ _ D' D) in N. contradiction.
  - exfalso. destruct H as [_ H]. apply (H d F k D).
Qed.
Lemma seg_hit_raise : forall segs n, (exists e, seg_hit segs n = Raise e) <-> unreadable n.
Proof.
  intros segs n. pose proof (seg_hit_spec segs n) as H. split; [intros [e E]; rewrite E in H; exact H|].
  intros [U1 U2]. destruct (seg_hit segs n) as [[|]|e]; [| |eauto].
  - exfalso. destruct H as (d & k & F & D & _). apply (U2 d F k D).
  - exfalso. destruct H as [H|(d & k & F & D & _)]; [contradiction|]. apply (U2 d F k D).
Qed.

(* ---------- the loop ---------- *)

Section Loop.
Context {T : Type} (f : arr -> bbasis -> T -> res arr) (init : Opti_Model.dict key T) (segs : list nat).

Lemma has_var : forall c n, sound c -> dhas String.eqb n (vars c) = true <-> exists sh, is_var c n sh.
Proof.
  intros c n [S _]. unfold dhas, is_var. destruct (dget String.eqb n (vars c)) as [sh|] eqn:E; split; try discriminate.
  - intros _. exists sh. apply sget_in, E.
  - reflexivity.
  - intros [sh H]. apply in_sget in H; [congruence|exact S].
Qed.
Lemma var_unique : forall c n sh sh', sound c -> is_var c n sh -> is_var c n sh' -> sh = sh'.
Proof. intros c n sh sh' [S _] A B. apply in_sget in A, B; auto. congruence. Qed.
Lemma spline_unique : forall c n b b', sound c -> is_spline c n b -> is_spline c n b' -> b = b'.
Proof. intros c n b b' (_ & S & _) A B. apply in_sget in A, B; auto. congruence. Qed.

(** what one child gets: entries of l that are selected variables are transformed *)
Definition done_for (c : child) (l : list (string * bbasis)) (s s' : store) : Prop :=
  forall c2 n, 
   (label c2 = label c -> forall b sh, In (n, b) l -> is_var c n sh -> selected segs n ->
      exists t a a', In ((label c, n), t) init /\ reads s c n a /\ f a b t = Ok a' /\ has_shape sh a' /\ reads s' c n a') /\
   ((forall b sh, label c2 = label c -> In (n, b) l -> is_var c n sh -> ~ selected segs n) ->
      forall a, reads s' c2 n a <-> reads s c2 n a).
Lemma transform_names_spec : forall cs c, family cs -> In c cs -> forall l s s',
  NoDup (map fst l) -> holds cs s -> transform_names f init segs c l s = Ok s' ->
  holds cs s' /\ done_for c l s s'.
Proof.
  intros cs c F Hc. assert (Sc : sound c) by (apply made_sound, F, Hc). induction l as [|[n b] l IH]; intros s s' N H E.
  - cbn in E. inv E. split; [exact H|]. intros c2 n. split; [intros _ b sh []|]. intros _ a. tauto.
  - cbn [map fst] in N. inversion N as [|x0 y0 Nn Nl]; subst x0 y0. cbn [transform_names] in E.
    assert (Skip : transform_names f init segs c l s = Ok s' -> (forall sh, is_var c n sh -> ~ selected segs n) ->
       holds cs s' /\ done_for c ((n, b) :: l) s s').
    { intros E' NS. destruct (IH s s' Nl H E') as [H' D]. split; [exact H'|]. intros c2 m. destruct (D c2 m) as [D1 D2]. split.
      - intros El b0 sh [X|X] Hv Hsel; [inv X; exfalso; apply (NS sh Hv Hsel)|]. apply (D1 El b0 sh X Hv Hsel).
      - intros Q. apply D2. intros b0 sh El X. apply (Q b0 sh El). right. exact X. }
    destruct (dhas String.eqb n (vars c)) eqn:V.
    2:{ apply Skip; [exact E|]. intros sh Hv. exfalso. assert (X : dhas String.eqb n (vars c) = true) by (apply has_var; eauto). congruence. }
    apply bind_ok in E. destruct E as (hit & Eh & E). destruct hit.
    2:{ apply Skip; [exact E|]. intros sh Hv X. apply seg_hit_true in X. congruence. }
    apply seg_hit_true in Eh.
    destruct (dget String.eqb n (vars c)) as [sh|] eqn:Ev; [|discriminate].
    destruct (dget key_eqb (label c, n) init) as [t|] eqn:Ei; [|discriminate].
    destruct (dget key_eqb (label c, n) s) as [a|] eqn:Es; [|discriminate].
    apply bind_ok in E. destruct E as (a' & Ea & E). apply bind_ok in E. destruct E as (a2 & Ef & E).
    apply fill_spec in Ef. cbn in Ef. destruct Ef as [Hs ->].
    assert (Hv : is_var c n sh) by (apply sget_in, Ev).
    assert (H1 : holds cs (dset key_eqb (label c, n) a' s)).
    { apply (kset_holds cs s (label c, n) a' sh); auto; [apply layout_nodup, F|]. apply layout_in. exists c, n. auto. }
    destruct (IH _ s' Nl H1 E) as [H' D]. split; [exact H'|].
    assert (R1 : forall c2 m x, (label c2, m) <> (label c, n) -> (reads (dset key_eqb (label c, n) a' s) c2 m x <-> reads s c2 m x)).
    { intros c2 m x Hne. rewrite (reads_get cs) by auto. rewrite (reads_get cs) by auto. rewrite kget_set.
      destruct (key_eqb (label c2, m) (label c, n)) eqn:Ek; [apply key_ok in Ek; contradiction|]. tauto. }
    assert (R2 : reads s' c n a').
    { destruct (D c n) as [_ D2]. apply D2.
      - intros b0 sh0 _ X. exfalso. apply Nn. apply (in_map fst) in X. exact X.
      - apply (reads_get cs); auto. rewrite kget_set, (proj2 (key_ok _ _) eq_refl). reflexivity. }
    intros c2 m. split.
    + intros El b0 sh0 [X|X] Hv0 Hsel.
      * inv X. exists t, a, a'. split; [apply kget_in, Ei|]. split; [apply kget_in, Es|]. split; [exact Ea|].
        split; [rewrite (var_unique c m sh0 sh Sc Hv0 Hv); exact Hs|exact R2].
      * destruct (D c2 m) as [D1 _]. destruct (D1 El b0 sh0 X Hv0 Hsel) as (t0 & a0 & a0' & A & B & C & C' & G).
        exists t0, a0, a0'. split; [exact A|]. split; [|auto]. apply R1 in B; [exact B|].
        intros Q. inv Q. apply Nn. apply (in_map fst) in X. exact X.
    + intros Q x. destruct (D c2 m) as [_ D2]. rewrite D2.
      * apply R1. intros Ek. inv Ek. apply (Q b sh); auto. left. reflexivity.
      * intros b0 sh0 El X. apply (Q b0 sh0 El). right. exact X.
Qed.

Lemma transform_children_spec : forall cs0, family cs0 -> forall cs s s', (forall c, In c cs -> In c cs0) -> NoDup (map label cs) ->
  holds cs0 s -> transform_children f init segs cs s = Ok s' ->
  holds cs0 s' /\ forall c2 n, In c2 cs0 ->
   (In c2 cs -> forall b sh, is_spline c2 n b -> is_var c2 n sh -> selected segs n ->
      exists t a a', In ((label c2, n), t) init /\ reads s c2 n a /\ f a b t = Ok a' /\ has_shape sh a' /\ reads s' c2 n a') /\
   ((forall b sh, In c2 cs -> is_spline c2 n b -> is_var c2 n sh -> ~ selected segs n) ->
      forall a, reads s' c2 n a <-> reads s c2 n a).
Proof.
  intros cs0 F. induction cs as [|c cs IH]; intros s s' I N H E.
  - cbn in E. inv E. split; [exact H|]. intros c2 n _. split; [contradiction|]. intros _ a. tauto.
  - cbn [map] in N. inversion N as [|x0 y0 Nc Ncs]; subst x0 y0. cbn [transform_children] in E. apply bind_ok in E. destruct E as (s1 & E1 & E2).
    assert (Hc : In c cs0) by (apply I; left; reflexivity).
    assert (Sc : sound c) by (apply made_sound, F, Hc).
    destruct (transform_names_spec cs0 c F Hc (prim c) s s1) as [H1 D1]; auto; [apply Sc|].
    destruct (IH s1 s') as [H2 D2]; auto; [intros; apply I; right; assumption|]. split; [exact H2|].
    intros c2 n Hc2. destruct (D1 c2 n) as [A1 B1]. destruct (D2 c2 n Hc2) as [A2 B2].
    destruct (string_dec (label c2) (label c)) as [El|Nl].
    + assert (c2 = c) by (apply (same_child cs0); auto). subst c2.
      assert (Nin : ~ In c cs) by (intros X; apply Nc, in_map, X).
      assert (Same : forall a, reads s' c n a <-> reads s1 c n a) by (apply B2; intros b sh X; contradiction).
      split.
      * intros _ b sh Hb Hv Hs. destruct (A1 eq_refl b sh Hb Hv Hs) as (t & a & a' & P & Q & R & R' & S).
        exists t, a, a'. split; [exact P|]. split; [exact Q|]. split; [exact R|]. split; [exact R'|]. apply Same, S.
      * intros Q a. rewrite Same. apply B1. intros b sh _ Hb Hv. apply (Q b sh); auto. left. reflexivity.
    + assert (Same : forall a, reads s1 c2 n a <-> reads s c2 n a) by (apply B1; intros b sh X; contradiction).
      split.
      * intros Hin b sh Hb Hv Hs. destruct Hin as [->|Hin]; [contradiction|].
        destruct (A2 Hin b sh Hb Hv Hs) as (t & a & a' & P & Q & R). exists t, a, a'. split; [exact P|]. split; [apply Same, Q|exact R].
      * intros Q a. rewrite B2; [apply Same|]. intros b sh Hin. apply (Q b sh). right. exact Hin.
Qed.

(** it raises as soon as a name cannot be read *)
Lemma transform_names_raises : forall c l s n b, sound c -> In (n, b) l -> (exists sh, is_var c n sh) -> unreadable n ->
  exists e, transform_names f init segs c l s = Raise e.
Proof.
  intros c l s n b Sc Hin Hv U. revert s. induction l as [|[m b'] l IH]; intros s; [contradiction|]. cbn [transform_names].
  destruct Hin as [E|Hin].
  - inv E. rewrite (proj2 (has_var c n Sc) Hv). apply (seg_hit_raise segs) in U. destruct U as [e U]. rewrite U. cbn. eauto.
  - destruct (dhas String.eqb m (vars c)); [|apply IH, Hin].
    destruct (seg_hit segs m) as [[|]|e]; cbn [bind]; [|apply IH, Hin|eauto].
    destruct (dget String.eqb m (vars c)); [|eauto]. destruct (dget key_eqb (label c, m) init); [|eauto].
    destruct (dget key_eqb (label c, m) s); [|eauto]. destruct (f a b' t); cbn [bind]; [|eauto].
    destruct (fill s0 (VArr a0)); cbn [bind]; [|eauto]. apply IH, Hin.
Qed.
Lemma transform_raises : forall cs s c n b, (forall c, In c cs -> sound c) -> In c cs -> is_spline c n b -> (exists sh, is_var c n sh) -> unreadable n ->
  exists e, transform_children f init segs cs s = Raise e.
Proof.
  intros cs s c n b Sc Hc Hb Hv U. revert s. induction cs as [|c' cs IH]; intros s; [contradiction|]. cbn [transform_children].
  destruct Hc as [->|Hc].
  - destruct (transform_names_raises c (prim c) s n b) as [e E]; auto; [apply Sc; left; reflexivity|]. rewrite E. cbn. eauto.
  - destruct (transform_names f init segs c' (prim c') s); cbn [bind]; [|eauto]. apply IH; auto. intros; apply Sc; right; assumption.
Qed.

(** and it works otherwise, when the function does *)
Definition can_do (s : store) (c : child) (l : list (string * bbasis)) : Prop :=
  forall n b sh, In (n, b) l -> is_var c n sh -> ~ unreadable n /\
    (selected segs n -> exists t a a', In ((label c, n), t) init /\ reads s c n a /\ f a b t = Ok a' /\ has_shape sh a').
Lemma transform_names_works : forall cs c, family cs -> In c cs -> NoDup (map fst init) -> forall l s,
  NoDup (map fst l) -> holds cs s -> can_do s c l -> exists s', transform_names f init segs c l s = Ok s'.
Proof.
  intros cs c F Hc Ni. assert (Sc : sound c) by (apply made_sound, F, Hc). induction l as [|[n b] l IH]; intros s N H C; [exists s; reflexivity|].
  cbn [map fst] in N. inversion N as [|x0 y0 Nn Nl]; subst x0 y0. cbn [transform_names].
  assert (C0 : can_do s c l) by (intros m b' sh X; apply C; right; exact X).
  destruct (dhas String.eqb n (vars c)) eqn:V; [|apply IH; auto].
  apply has_var in V; [|exact Sc]. destruct V as [sh Hv]. destruct (C n b sh (or_introl eq_refl) Hv) as [U W].
  destruct (seg_hit segs n) as [hit|e] eqn:Eh; [|exfalso; apply U, (seg_hit_raise segs); eauto]. cbn [bind].
  destruct hit; [|apply IH; auto]. apply seg_hit_true in Eh. destruct (W Eh) as (t & a & a' & P & Q & R & R').
  rewrite (in_sget n sh (vars c)); [|apply Sc|exact Hv]. rewrite (in_kget _ t init Ni P).
  apply (reads_get cs) in Q; auto. rewrite Q, R. cbn [bind]. rewrite (proj2 (fill_spec sh (VArr a') a') (conj R' eq_refl)). cbn [bind].
  assert (H1 : holds cs (dset key_eqb (label c, n) a' s)).
  { apply (kset_holds cs s (label c, n) a' sh); auto; [apply layout_nodup, F|]. apply layout_in. exists c, n. auto. }
  apply IH; auto. intros m b' sh' X Hv'. destruct (C0 m b' sh' X Hv') as [A B]. split; [exact A|]. intros Hs.
  destruct (B Hs) as (t2 & a2 & a2' & P2 & Q2 & R2). exists t2, a2, a2'. split; [exact P2|]. split; [|exact R2].
  apply (reads_get cs); auto. rewrite kget_set. apply (reads_get cs) in Q2; auto.
  destruct (key_eqb (label c, m) (label c, n)) eqn:Ek; [|exact Q2]. apply key_ok in Ek. inv Ek.
  exfalso. apply Nn. apply (in_map fst) in X. exact X.
Qed.
Lemma transform_works_gen : forall cs0, family cs0 -> NoDup (map fst init) -> forall cs s, (forall c, In c cs -> In c cs0) -> NoDup (map label cs) ->
  holds cs0 s -> (forall c, In c cs -> can_do s c (prim c)) -> exists s', transform_children f init segs cs s = Ok s'.
Proof.
  intros cs0 F Ni. induction cs as [|c cs IH]; intros s I N H C; [exists s; reflexivity|].
  cbn [map] in N. inversion N as [|x0 y0 Nc Ncs]; subst x0 y0. cbn [transform_children].
  assert (Hc : In c cs0) by (apply I; left; reflexivity). assert (Sc : sound c) by (apply made_sound, F, Hc).
  destruct (transform_names_works cs0 c F Hc Ni (prim c) s) as [s1 E1]; auto; [apply Sc|apply C; left; reflexivity|].
  rewrite E1. cbn [bind]. destruct (transform_names_spec cs0 c F Hc (prim c) s s1) as [H1 D1]; auto; [apply Sc|].
  apply IH; auto; [intros; apply I; right; assumption|]. intros c2 Hc2 n b sh Hb Hv.
  destruct (C c2 (or_intror Hc2) n b sh Hb Hv) as [A B]. split; [exact A|]. intros Hs.
  destruct (B Hs) as (t & a & a' & P & Q & R). exists t, a, a'. split; [exact P|]. split; [|exact R].
  destruct (D1 c2 n) as [_ D2]. apply D2; [|exact Q]. intros b' sh' El. exfalso. apply Nc. rewrite <- El. apply in_map, Hc2.
Qed.
End Loop.

(* ---------- init_transformations ---------- *)

Lemma all_equal_eq : forall l l', length l = length l' -> all_equal l l' = true -> l = l'.
Proof.
  induction l as [|a l IH]; intros [|a' l'] L E; cbn in L; try discriminate; [reflexivity|]. cbn in E.
  apply andb_true_iff in E. destruct E as [E1 E2]. unfold Reqb in E1. destruct (Req_EM_T a a'); [|discriminate]. subst.
  f_equal. apply IH; [lia|exact E2].
Qed.
Lemma all_equal_refl : forall l, all_equal l l = true.
Proof. induction l as [|a l IH]; [reflexivity|]. cbn. rewrite IH. unfold Reqb. destruct (Req_EM_T a a); [reflexivity|congruence]. Qed.
Lemma basis_eq_eq : forall b b', basis_eq b b' = true <-> b = b'.
Proof.
  intros [k d] [k' d']. unfold basis_eq. cbn [knots degree]. split.
  - rewrite !andb_true_iff. intros [[A B] C]. apply Nat.eqb_eq in A, C. subst. f_equal. apply all_equal_eq; assumption.
  - intros H. inv H. rewrite all_equal_refl, !Nat.eqb_refl. reflexivity.
Qed.
Section Init.
Context {T : Type} (ini : bbasis -> res T).
Definition cache_ok (d : list (bbasis * T)) : Prop := NoDup (map fst d) /\ forall b t, In (b, t) d -> ini b = Ok t.
Lemma tf_find_in : forall b (d : list (bbasis * T)) (t : T), tf_find b d = Some t -> In (b, t) d.
Proof.
  intros b. induction d as [|[b' t'] d IH]; intros t H; [discriminate|]. cbn in H. destruct (basis_eq b b') eqn:E.
  - apply basis_eq_eq in E. inv H. left. reflexivity.
  - right. apply IH, H.
Qed.
Lemma tf_find_none : forall b (d : list (bbasis * T)), tf_find b d = None -> ~ In b (map fst d).
Proof.
  intros b. induction d as [|[b' t'] d IH]; intros H; [intros []|]. cbn in H. destruct (basis_eq b b') eqn:E; [discriminate|].
  intros [X|X]; [|apply (IH H X)]. cbn in X. subst b'. rewrite (proj2 (basis_eq_eq b b) eq_refl) in E. discriminate.
Qed.
Lemma cache_add : forall d b t, cache_ok d -> tf_find b d = None -> ini b = Ok t -> cache_ok (d ++ [(b, t)]).
Proof.
  intros d b t [N H] E Hb. split.
  - rewrite map_app. apply nodup_app_R; [exact N|constructor; [intros []|constructor]|]. intros x Hx [X|[]]. cbn in X. subst x. apply (tf_find_none b d E Hx).
  - intros b' t' X. apply in_app_or in X. destruct X as [X|[X|[]]]; [apply H, X|]. inv X. exact Hb.
Qed.
Lemma kset_nodup : forall k (v : T) (d : Opti_Model.dict key T), NoDup (map fst d) -> NoDup (map fst (dset key_eqb k v d)).
Proof. apply Opti_Proofs2.dset_nodup, key_ok. Qed.

Lemma init_names_spec : forall c l cache out cache' out', sound c -> NoDup (map fst l) -> cache_ok cache -> NoDup (map fst out) ->
  init_names ini c l cache out = Ok (cache', out') ->
  cache_ok cache' /\ NoDup (map fst out') /\
  (forall b t, In (b, t) cache -> In (b, t) cache') /\
  (forall b, In b (map fst cache') -> In b (map fst cache) \/ exists n sh, In (n, b) l /\ is_var c n sh) /\
  (forall n b sh, In (n, b) l -> is_var c n sh -> exists t, ini b = Ok t /\ dget key_eqb (label c, n) out' = Some t) /\
  (forall k, (forall n b sh, In (n, b) l -> is_var c n sh -> k <> (label c, n)) -> dget key_eqb k out' = dget key_eqb k out).
Proof.
  intros c. induction l as [|[n b] l IH]; intros cache out cache' out' Sc N C No E.
  - cbn in E. inv E. split; [exact C|]. split; [exact No|]. split; [auto|]. split; [auto|]. split; [intros n b sh []|]. reflexivity.
  - cbn [map fst] in N. inversion N as [|x0 y0 Nn Nl]; subst x0 y0. cbn [init_names] in E.
    destruct (dhas String.eqb n (vars c)) eqn:V.
    + apply has_var in V; [|exact Sc]. destruct V as [sh Hv].
      assert (G : exists t c1, ini b = Ok t /\ cache_ok c1 /\ (forall b t, In (b, t) cache -> In (b, t) c1) /\
        (forall b', In b' (map fst c1) -> In b' (map fst cache) \/ b' = b) /\
        init_names ini c l c1 (dset key_eqb (label c, n) t out) = Ok (cache', out')).
      { destruct (tf_find b cache) as [t|] eqn:Et.
        - exists t, cache. split; [apply (proj2 C), tf_find_in, Et|]. split; [exact C|]. split; [auto|]. split; [auto|]. exact E.
        - apply bind_ok in E. destruct E as (t & Et2 & E). exists t, (cache ++ [(b, t)])%list. split; [exact Et2|].
          split; [apply cache_add; auto|]. split; [intros; apply in_or_app; left; assumption|]. split; [|exact E].
          intros b' X. rewrite map_app in X. apply in_app_or in X. destruct X as [X|[X|[]]]; auto. }
      destruct G as (t & c1 & Et & C1 & Inc & Keys & E1).
      destruct (IH _ _ _ _ Sc Nl C1 (kset_nodup _ _ _ No) E1) as (A1 & A2 & A3 & A4 & A5 & A6).
      split; [exact A1|]. split; [exact A2|]. split; [auto|]. split.
      * intros b' X. destruct (A4 b' X) as [Y|(m & sh' & Y & Z)].
        -- destruct (Keys b' Y) as [Y'| ->]; [left; exact Y'|]. right. exists n, sh. split; [left; reflexivity|exact Hv].
        -- right. exists m, sh'. split; [right; exact Y|exact Z].
      * split.
        -- intros m b' sh' [X|X] Hv'.
           ++ inv X. exists t. split; [exact Et|]. rewrite A6.
              ** rewrite kget_set, (proj2 (key_ok _ _) eq_refl). reflexivity.
              ** intros m' b2 sh2 X _ Q. inv Q. apply Nn. apply (in_map fst) in X. exact X.
           ++ apply (A5 m b' sh' X Hv').
        -- intros k Q. rewrite A6.
           ++ rewrite kget_set. destruct (key_eqb k (label c, n)) eqn:Ek; [|reflexivity]. apply key_ok in Ek. exfalso.
              apply (Q n b sh); auto. left. reflexivity.
           ++ intros m b' sh' X. apply (Q m b' sh'). right. exact X.
    + assert (NV : forall sh, ~ is_var c n sh).
      { intros sh Hv. assert (X : dhas String.eqb n (vars c) = true) by (apply has_var; eauto). congruence. }
      destruct (IH _ _ _ _ Sc Nl C No E) as (A1 & A2 & A3 & A4 & A5 & A6).
      split; [exact A1|]. split; [exact A2|]. split; [exact A3|]. split.
      * intros b' X. destruct (A4 b' X) as [Y|(m & sh' & Y & Z)]; [left; exact Y|]. right. exists m, sh'. split; [right; exact Y|exact Z].
      * split.
        -- intros m b' sh' [X|X] Hv'; [inv X; exfalso; apply (NV _ Hv')|]. apply (A5 m b' sh' X Hv').
        -- intros k Q. apply A6. intros m b' sh' X. apply (Q m b' sh'). right. exact X.
Qed.
Lemma init_children_spec : forall cs cache out cache' out', (forall c, In c cs -> sound c) -> NoDup (map label cs) -> cache_ok cache -> NoDup (map fst out) ->
  init_children ini cs cache out = Ok (cache', out') ->
  cache_ok cache' /\ NoDup (map fst out') /\
  (forall b, In b (map fst cache') -> In b (map fst cache) \/ exists c n sh, In c cs /\ is_spline c n b /\ is_var c n sh) /\
  (forall c n b sh, In c cs -> is_spline c n b -> is_var c n sh -> exists t, ini b = Ok t /\ dget key_eqb (label c, n) out' = Some t) /\
  (forall k, (forall c, In c cs -> fst k <> label c) -> dget key_eqb k out' = dget key_eqb k out).
Proof.
  induction cs as [|c cs IH]; intros cache out cache' out' Sc N C No E.
  - cbn in E. inv E. split; [exact C|]. split; [exact No|]. split; [auto|]. split; [intros c n b sh []|]. reflexivity.
  - cbn [map] in N. inversion N as [|x0 y0 Nc Ncs]; subst x0 y0. cbn [init_children] in E. apply bind_ok in E.
    destruct E as ([c1 o1] & E1 & E2). cbn [fst snd] in E2.
    assert (Scc : sound c) by (apply Sc; left; reflexivity).
    destruct (init_names_spec c (prim c) cache out c1 o1 Scc (proj1 (proj2 Scc)) C No E1) as (A1 & A2 & A3 & A4 & A5 & A6).
    destruct (IH c1 o1 cache' out' (fun c0 H => Sc c0 (or_intror H)) Ncs A1 A2 E2) as (B1 & B2 & B3 & B4 & B5).
    split; [exact B1|]. split; [exact B2|]. split; [|split].
    + intros b X. destruct (B3 b X) as [Y|(c' & n & sh & P & Q)].
      * destruct (A4 b Y) as [Z|(n & sh & P & Q)]; [left; exact Z|]. right. exists c, n, sh. split; [left; reflexivity|split; assumption].
      * right. exists c', n, sh. split; [right; exact P|exact Q].
    + intros c' n b sh [->|Hc] Hb Hv; [|apply (B4 c' n b sh Hc Hb Hv)].
      destruct (A5 n b sh Hb Hv) as (t & P & Q). exists t. split; [exact P|]. rewrite B5; [exact Q|].
      cbn [fst]. intros c'' Hc'' El. apply Nc. rewrite El. apply in_map, Hc''.
    + intros k Q. rewrite B5 by (intros c' Hc'; apply Q; right; exact Hc'). apply A6.
      intros n b sh _ _ Ek. apply (Q c (or_introl eq_refl)). rewrite Ek. reflexivity.
Qed.
Theorem init_spec : forall cs init, family cs -> init_transformations ini cs = Ok init ->
  NoDup (map fst init) /\
  forall c n b sh, In c cs -> is_spline c n b -> is_var c n sh -> exists t, ini b = Ok t /\ In ((label c, n), t) init.
Proof.
  intros cs init F E. unfold init_transformations in E. apply bind_ok in E. destruct E as ([c1 o1] & E1 & E2). cbn [snd] in E2. inv E2.
  assert (C : cache_ok []) by (split; [constructor|intros b t []]).
  destruct (init_children_spec cs [] [] c1 init) as (A1 & A2 & A3 & A4 & A5); auto;
    [intros c Hc; apply made_sound, F, Hc|apply F|constructor|]. split; [exact A2|].
  intros c n b sh Hc Hb Hv. destruct (A4 c n b sh Hc Hb Hv) as (t & P & Q). exists t. split; [exact P|apply kget_in, Q].
Qed.
(** it raises exactly when a basis of a spline variable cannot be transformed *)
Lemma init_names_works : forall c l cache out, sound c -> (forall n b sh, In (n, b) l -> is_var c n sh -> exists t, ini b = Ok t) ->
  exists r, init_names ini c l cache out = Ok r.
Proof.
  intros c. induction l as [|[n b] l IH]; intros cache out Sc H; [eexists; reflexivity|]. cbn [init_names].
  assert (H' : forall n b sh, In (n, b) l -> is_var c n sh -> exists t, ini b = Ok t) by (intros m b' sh X; apply H; right; exact X).
  destruct (dhas String.eqb n (vars c)) eqn:V; [|apply IH; auto]. apply has_var in V; [|exact Sc]. destruct V as [sh Hv].
  destruct (tf_find b cache); [apply IH; auto|]. destruct (H n b sh (or_introl eq_refl) Hv) as [t Et]. rewrite Et. cbn [bind]. apply IH; auto.
Qed.
Theorem init_works_iff : forall cs, family cs ->
  ((exists init, init_transformations ini cs = Ok init) <->
   forall c n b sh, In c cs -> is_spline c n b -> is_var c n sh -> exists t, ini b = Ok t).
Proof.
  intros cs F. split.
  - intros [init E] c n b sh Hc Hb Hv. destruct (init_spec cs init F E) as [_ H]. destruct (H c n b sh Hc Hb Hv) as (t & P & _). eauto.
  - intros H. unfold init_transformations. assert (G : forall cs, (forall c, In c cs -> sound c) -> (forall c n b sh, In c cs -> is_spline c n b -> is_var c n sh -> exists t, ini b = Ok t) ->
      forall cache out, exists r, init_children ini cs cache out = Ok r).
    { clear. induction cs as [|c cs IH]; intros Sc H cache out; [eexists; reflexivity|]. cbn [init_children].
      destruct (init_names_works c (prim c) cache out) as [[c1 o1] E]; [apply Sc; left; reflexivity|intros n b sh; apply H; left; reflexivity|].
      rewrite E. cbn [bind fst snd]. apply IH; [intros; apply Sc; right; assumption|]. intros c' n b sh Hc'. apply H. right. exact Hc'. }
    destruct (G cs) with (cache := @nil (bbasis * T)) (out := @nil (key * T)) as [[c1 o1] E]; [intros c Hc; apply made_sound, F, Hc|exact H|].
    exists o1. rewrite E. reflexivity.
Qed.
End Init.
