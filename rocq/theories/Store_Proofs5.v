(** The warm start, solve and sleep. *)
From Coq Require Import String Ascii Reals List Arith Bool Lia Lra ZArith QArith_base.
From Verif Require Import Spline_Model Spline_Spec Spline_Proofs Spline_Proofs2 Spline_Proofs3 Spline_Proofs5
  Splop_Model Splop_Spec Splop_Proofs Splop_Proofs2 Splop_Proofs4 Shift_Model Shift_Spec Shift_Proofs8
  Store_Model Store_Spec Store_Proofs Store_Proofs2 Store_Proofs3 Store_Proofs4.
From Verif Require Concat_Proofs Opti_Model Opti_Proofs Opti_Proofs2 Timing_Model Timing_Proofs Timing_Proofs2 Multi_Model.
Import ListNotations.
Local Open Scope R_scope.
Local Notation length := List.length.
Local Notation slen := String.length.
Local Notation dget := Opti_Model.dget.

Lemma hits_selected : forall a n, hits a n <-> selected (segs_of a) n.
Proof.
  intros a n. unfold hits, selected. split; intros (d & k & F & D & H); exists d, k; split; auto; split; auto;
    destruct a as [[m|l]|]; cbn in *; subst; auto; destruct H as [H|[]]; auto.
Qed.

(* ---------- names of the code ---------- *)

Lemma py_str_digit : forall k, exists d r, Opti_Model.py_str k = String d r /\
  (exists i, digit_of d i) /\ (digit_of d 0 <-> k = 0%nat).
Proof.
  intros k. unfold Opti_Model.py_str. pose proof (DecimalNat.Unsigned.to_of (Nat.to_uint k)) as N. rewrite DecimalNat.Unsigned.of_to in N.
  assert (E0 : k = 0%nat <-> Nat.to_uint k = Decimal.D0 Decimal.Nil).
  { split; [intros ->; reflexivity|]. intros E. pose proof (DecimalNat.Unsigned.of_to k) as X. rewrite E in X. cbn in X. congruence. }
  assert (Z : forall u, Decimal.unorm (Decimal.D0 u) = Decimal.D0 u -> u = Decimal.Nil).
  { intros u Hu. destruct (Decimal.nzhead u) eqn:Eu; cbn in Hu; unfold Decimal.unorm in Hu; cbn in Hu; rewrite Eu in Hu; try discriminate; try congruence.
    exfalso. clear - Eu. revert Eu. assert (G : forall w v, Decimal.nzhead w <> Decimal.D0 v) by (induction w; cbn; intros; try discriminate; auto). apply G. }
  destruct (Nat.to_uint k) eqn:E; cbn [DecimalString.NilEmpty.string_of_uint].
  1:{ cbn in N. discriminate. }
  1:{ symmetry in N. apply Z in N. subst u. eexists _, _. split; [reflexivity|]. split; [exists 0%nat; split; [lia|reflexivity]|].
      split; [intros _; apply E0; reflexivity|]. intros _. split; [lia|reflexivity]. }
  all: eexists _, _; split; [reflexivity|]; split; [|split; [intros [_ Q]; cbv in Q; discriminate|intros X; apply E0 in X; discriminate]].
  1: exists 1%nat. 2: exists 2%nat. 3: exists 3%nat. 4: exists 4%nat. 5: exists 5%nat. 6: exists 6%nat. 7: exists 7%nat. 8: exists 8%nat. 9: exists 9%nat.
  all: split; [lia|reflexivity].
Qed.
Lemma no_seg_se : forall p, has_seg (p ++ "se") -> has_seg p.
Proof.
  intros p (p' & r & E). revert p E. induction p' as [|c' p' IH]; intros p E.
  - destruct p as [|c1 p]; [discriminate|]. destruct p as [|c2 p]; [discriminate|]. destruct p as [|c3 p]; [discriminate|].
    cbn in E. inv E. exists ""%string, p. reflexivity.
  - destruct p as [|c p].
    + cbn in E. inv E. destruct p' as [|c2 p']; [discriminate|]. cbn in H1. inv H1. destruct p'; discriminate.
    + cbn in E. inv E. destruct (IH p H1) as (q & r2 & ->). exists (String c' q), r2. reflexivity.
Qed.
(** a name p ++ "seg" ++ number ++ r whose first part has no "seg" *)
Lemma first_seg_at : forall p d r, ~ has_seg (p ++ "se") -> first_seg (p ++ "seg" ++ String d r) d.
Proof.
  intros p d r H. exists p, r. split; [reflexivity|]. intros p' r' E.
  destruct (le_lt_dec (slen p) (slen p')) as [L|L]; [exact L|]. exfalso. apply H.
  assert (G : forall p p' q r', (p ++ "se" ++ String "g" q)%string = (p' ++ "seg" ++ r')%string -> (slen p' < slen p)%nat -> exists r2, (p ++ "se" = p' ++ "seg" ++ r2)%string).
  { clear. induction p as [|c p IH]; intros p' q r' E L; [cbn in L; lia|]. destruct p' as [|c' p'].
    - cbn in E. inv E. destruct p as [|c2 p]; [exfalso; cbn in H1; discriminate|]. cbn in H1. inv H1.
      destruct p as [|c3 p]; [exists "e"%string|]; [cbn in H2; discriminate|]. cbn in H2. inv H2. exists (p ++ "se")%string. reflexivity.
    - cbn in E, L. inv E. destruct (IH p' q r' H1) as [r2 E2]; [lia|]. exists r2. cbn. f_equal. exact E2. }
  destruct (G p p' (String d r) r') as [r2 E2]; [exact E|exact L|]. exists p', r2. exact E2.
Qed.
Theorem seg_names : forall p k r, ~ has_seg p ->
  let n := (p ++ "seg" ++ Opti_Model.py_str k ++ r)%string in
  ~ unreadable n /\ (hits None n <-> k = 0%nat).
Proof.
  intros p k r H n. destruct (py_str_digit k) as (d & r0 & E & [i Hi] & Z).
  assert (F : first_seg n d) by (unfold n; rewrite E; apply (first_seg_at p d (r0 ++ r)); intros X; apply H, no_seg_se, X).
  split.
  - intros [_ U]. apply (U d F i Hi).
  - split.
    + intros (d' & k' & F' & D' & ->). rewrite (first_seg_unique n d' d F' F) in D'. apply Z, D'.
    + intros K0. exists d, 0%nat. split; [exact F|]. split; [apply Z, K0|reflexivity].
Qed.

(* ---------- both together ---------- *)

Theorem transform_primal : forall (T : Type) (ini : bbasis -> res T) f init a cs s s', family cs -> holds cs s ->
  init_transformations ini cs = Ok init -> transform_primal_splines f init a cs s = Ok s' ->
  holds cs s' /\
  (forall c n b sh, In c cs -> is_spline c n b -> is_var c n sh -> hits a n ->
     exists t x x', ini b = Ok t /\ reads s c n x /\ f x b t = Ok x' /\ has_shape sh x' /\ reads s' c n x') /\
  (forall c n, In c cs -> (forall b sh, is_spline c n b -> is_var c n sh -> ~ hits a n) ->
     forall x, reads s' c n x <-> reads s c n x).
Proof.
  intros T ini f init a cs s s' F H I E. destruct (init_spec ini cs init F I) as [Ni Gi].
  destruct (transform_children_spec f init (segs_of a) cs F cs s s') as [H' D]; auto; [apply F|].
  split; [exact H'|]. split.
  - intros c n b sh Hc Hb Hv Hh. apply hits_selected in Hh. destruct (D c n Hc) as [D1 _].
    destruct (D1 Hc b sh Hb Hv Hh) as (t & x & x' & P & Q & R). destruct (Gi c n b sh Hc Hb Hv) as (t2 & Et & Pt).
    assert (t2 = t). { apply (in_kget _ _ init Ni) in P. apply (in_kget _ _ init Ni) in Pt. congruence. } subst t2.
    exists t, x, x'. auto.
  - intros c n Hc Q. destruct (D c n Hc) as [_ D2]. apply D2. intros b sh _ Hb Hv. rewrite <- hits_selected. apply (Q b sh Hb Hv).
Qed.
Theorem transform_primal_works : forall (T : Type) (ini : bbasis -> res T) (f : arr -> bbasis -> T -> res arr) a cs s, family cs -> holds cs s ->
  (forall c n b sh, In c cs -> is_spline c n b -> is_var c n sh -> ~ unreadable n /\
     exists t, ini b = Ok t /\ (hits a n -> forall x, reads s c n x -> exists x', f x b t = Ok x' /\ has_shape sh x')) ->
  exists init s', init_transformations ini cs = Ok init /\ transform_primal_splines f init a cs s = Ok s'.
Proof.
  intros T ini f a cs s F H W. destruct (proj2 (init_works_iff ini cs F)) as [init I].
  - intros c n b sh Hc Hb Hv. destruct (W c n b sh Hc Hb Hv) as (_ & t & Et & _). eauto.
  - destruct (init_spec ini cs init F I) as [Ni Gi]. exists init.
    destruct (transform_works_gen f init (segs_of a) cs F Ni cs s) as [s' E]; auto; [apply F| |exists s'; auto].
    intros c Hc n b sh Hb Hv. destruct (W c n b sh Hc Hb Hv) as (U & t & Et & K). split; [exact U|]. intros Hs.
    apply hits_selected in Hs. destruct (holds_reads cs s c n sh F H Hc Hv) as (x & Rx & _ & _).
    destruct (K Hs x Rx) as (x' & Ex & Sx). destruct (Gi c n b sh Hc Hb Hv) as (t2 & Et2 & Pt). assert (t2 = t) by congruence. subst t2.
    exists t, x, x'. auto.
Qed.
Theorem transform_primal_raises : forall (T : Type) (f : arr -> bbasis -> T -> res arr) init a cs s c n b sh, family cs ->
  In c cs -> is_spline c n b -> is_var c n sh -> unreadable n -> exists e, transform_primal_splines f init a cs s = Raise e.
Proof.
  intros T f init a cs s c n b sh F Hc Hb Hv U. apply (transform_raises f init (segs_of a) cs s c n b); eauto.
  intros c0 Hc0. apply made_sound, F, Hc0.
Qed.

(* ---------- fixed motion time ---------- *)

Local Notation zq := inject_Z.

(** within a knot interval nothing changes *)
Theorem fixed_within : forall init cs (ts : Q) (m k1 k2 : Z) s, (0 < ts)%Q -> (0 < m <= 1000000)%Z -> (0 <= k1)%Z -> (0 <= k2)%Z ->
  (k2 / m <= k1 / m)%Z -> fixed_init_step init cs (zq m * ts) (zq k1 * ts) (zq k2 * ts) s = Ok ((zq k2 * ts)%Q, s).
Proof.
  intros init cs ts m k1 k2 s T M K1 K2 L. unfold fixed_init_step.
  rewrite !(Timing_Proofs2.interval_grid ts m) by assumption. rewrite (proj2 (Z.ltb_ge _ _)) by exact L. reflexivity.
Qed.
Lemma map_shift : forall tol b M x, shiftoverknot_T tol b = Some M ->
  forall j, (j < length x)%nat -> shift_over_knot tol (nth j x []) b = Some (nth j (map (mdot (blen b) (blen b) M) x) []).
Proof.
  intros tol b M x E j Hj. unfold shift_over_knot. rewrite E. f_equal.
  rewrite (nth_indep (map _ _) [] (mdot (blen b) (blen b) M [])) by (rewrite map_length; exact Hj). rewrite (map_nth (mdot (blen b) (blen b) M)). reflexivity.
Qed.
(** after a knot the splines of segment 0 are taken one knot interval later *)
Theorem fixed_shift : forall tol init cs (ts : Q) (m k1 k2 : Z) s p s', (0 < ts)%Q -> (0 < m <= 1000000)%Z -> (0 <= k1)%Z -> (0 <= k2)%Z ->
  (k1 / m < k2 / m)%Z -> family cs -> holds cs s -> init_transformations (fixed_init tol) cs = Ok init ->
  fixed_init_step init cs (zq m * ts) (zq k1 * ts) (zq k2 * ts) s = Ok (p, s') ->
  p = (zq k2 * ts)%Q /\ holds cs s' /\
  (forall c n d K h sh x, 0 <= tol -> In c cs -> is_spline c n (equidistant d K h) -> is_var c n sh -> fst sh = (K + d)%nat -> hits None n ->
     0 < h -> (2 <= K)%nat -> (1 <= d <= K)%nat -> reads s c n x ->
     exists x', reads s' c n x' /\ has_shape sh x' /\ forall j, (j < length x)%nat ->
       let old := mkS (equidistant d K h) (nth j x []) in let new := mkS (equidistant d K h) (nth j x' []) in
       (forall u, 0 <= u <= INR (K - 1) * h -> Rabs (call new u - call old (u + h)) <= tol * size_of (coeffs old)) /\
       exists a, length a = (d + 1)%nat /\ (forall u, INR (K - 1) * h < u <= INR K * h -> call old u = poly a u) /\
         forall u, INR (K - 1) * h < u <= INR K * h -> Rabs (call new u - poly a (u + h)) <= tol * size_of (coeffs old)) /\
  same_vars cs s s' (fun c n => hits None n /\ exists b sh, is_spline c n b /\ is_var c n sh).
Proof.
  intros tol init cs ts m k1 k2 s p s' T M K1 K2 L F H I E. unfold fixed_init_step in E.
  rewrite !(Timing_Proofs2.interval_grid ts m) in E by assumption. rewrite (proj2 (Z.ltb_lt _ _)) in E by exact L.
  apply bind_ok in E. destruct E as (s1 & E & E1). inv E1. split; [reflexivity|].
  destruct (transform_primal _ (fixed_init tol) fixed_transform init None cs s s' F H I E) as (H' & D1 & D2).
  split; [exact H'|]. split.
  - intros c n d K h sh x T0 Hc Hb Hv Hsh Hh H0 HK Hd Rx. destruct (D1 c n _ sh Hc Hb Hv Hh) as (t & y & y' & Et & Ry & Ef & Sy & Ry').
    destruct (holds_reads cs s c n sh F H Hc Hv) as (z & Rz & Sz & Uz).
    rewrite (Uz y Ry) in Ef. rewrite (Uz x Rx) in *. clear Ry y.
    unfold fixed_init in Et. destruct (shiftoverknot_T tol (equidistant d K h)) as [M0|] eqn:EM; [|discriminate]. inv Et. cbn [fixed_transform] in Ef. inv Ef.
    eexists. split; [exact Ry'|]. split; [exact Sy|]. intros j Hj. cbn zeta. cbn [coeffs].
    destruct (shift_equidistant d K h H0 HK (proj1 Hd) (proj2 Hd) tol (nth j z [])) with (c2 := nth j (map (mdot (blen (equidistant d K h)) (blen (equidistant d K h)) M0) z) []) as (_ & A & B); auto.
    + rewrite <- Hsh. apply (proj2 Sz). apply nth_In, Hj.
    + apply (map_shift tol); auto.
  - intros c n Hc Hn. apply D2; [exact Hc|]. intros b sh Hb Hv Hh. apply Hn. split; [exact Hh|]. eauto.
Qed.
Theorem fixed_works : forall tol cs (ts : Q) (m k1 k2 : Z) s, family cs -> holds cs s ->
  (forall c n b sh, In c cs -> is_spline c n b -> is_var c n sh -> ~ unreadable n /\
     exists d K h, b = equidistant d K h /\ 0 < h /\ (2 <= K)%nat /\ (1 <= d <= 3)%nat /\ (d <= K)%nat /\ fst sh = (K + d)%nat) ->
  exists init r, init_transformations (fixed_init tol) cs = Ok init /\
    fixed_init_step init cs (zq m * ts) (zq k1 * ts) (zq k2 * ts) s = Ok r.
Proof.
  intros tol cs ts m k1 k2 s F H W.
  destruct (transform_primal_works _ (fixed_init tol) fixed_transform None cs s F H) as (init & s' & I & E).
  - intros c n b sh Hc Hb Hv. destruct (W c n b sh Hc Hb Hv) as (U & d & K & h & -> & H0 & HK & Hd & Hdk & Hsh). split; [exact U|].
    destruct (shift_equidistant_works d K h H0 HK Hd Hdk tol []) as [c2 Ec]. unfold shift_over_knot in Ec.
    destruct (shiftoverknot_T tol (equidistant d K h)) as [M0|] eqn:EM; [|discriminate].
    exists (Some M0). unfold fixed_init. rewrite EM. split; [reflexivity|]. intros _ x Rx.
    eexists. split; [reflexivity|]. destruct (reads_var cs s c n x F H Hc Rx) as (sh2 & Hv2 & Sx).
    assert (sh2 = sh) by (apply (var_unique c n); auto; apply made_sound, F, Hc). subst sh2. split.
    + rewrite map_length. apply Sx.
    + intros col Hin. apply in_map_iff in Hin. destruct Hin as (y & <- & _). unfold mdot. rewrite map_length, seq_length, Hsh. apply eq_blen, HK.
  - exists init. unfold fixed_init_step. destruct (Z.ltb _ _); eexists; (split; [exact I|]); [rewrite E; reflexivity|reflexivity].
Qed.

(* ---------- free motion time ---------- *)

Lemma get_number_spec : forall cs s c n r, family cs -> holds cs s -> In c cs -> (forall b, ~ is_spline c n b) ->
  (get_number c n s = Ok r <-> exists col cols, reads s c n ((r :: col) :: cols)).
Proof.
  intros cs s c n r F H Hc Ns. unfold get_number. split.
  - intros E. destruct (get_one c n true s) as [[l|a]|e] eqn:Eg; try discriminate.
    destruct a as [|[|r0 col] cols]; try discriminate. inv E. exists col, cols.
    unfold get_one in Eg. destruct (dget key_eqb (label c, n) s) as [a|] eqn:Es; [|discriminate].
    assert (a = (r :: col) :: cols). { cbn [andb] in Eg. destruct (dget String.eqb n (prim c)) eqn:Ep; cbn in Eg; [|inv Eg; reflexivity].
      exfalso. apply (Ns b), sget_in, Ep. } subst a. apply kget_in, Es.
  - intros (col & cols & R). rewrite (get_plain cs s c n _ F H Hc Ns R). reflexivity.
Qed.
Lemma on_columns_ok : forall f a a', on_columns f a = Ok a' -> length a' = length a /\
  forall j, (j < length a)%nat -> f (nth j a []) = Some (nth j a' []).
Proof.
  intros f a a' E. unfold on_columns in E. destruct (oall (map f a)) as [l|] eqn:O; [|discriminate]. inv E. apply oall_spec in O.
  assert (L : length a' = length a) by (apply (f_equal (@List.length _)) in O; rewrite !map_length in O; congruence). split; [exact L|].
  intros j Hj. apply (f_equal (fun l => nth j l None)) in O.
  rewrite (nth_indep _ None (f [])) in O by (rewrite map_length; exact Hj). rewrite (map_nth f) in O.
  rewrite (nth_indep _ None (Some [])) in O by (rewrite map_length, L; exact Hj). rewrite (map_nth Some) in O. exact O.
Qed.
Lemma free_rest : forall tol t init a cs s s', family cs -> holds cs s -> init_transformations free_init cs = Ok init ->
  transform_primal_splines (free_transform tol t) init a cs s = Ok s' ->
  holds cs s' /\ rest_of cs a tol t s s' /\ same_vars cs s s' (fun c n => hits a n /\ exists b sh, is_spline c n b /\ is_var c n sh).
Proof.
  intros tol t init a cs s s' F H I E.
  destruct (transform_primal _ free_init (free_transform tol t) init a cs s s' F H I E) as (H' & D1 & D2).
  split; [exact H'|]. split.
  2:{ intros c n Hc Hn. apply D2; [exact Hc|]. intros b sh Hb Hv Hh. apply Hn. split; [exact Hh|]. eauto. }
  intros c n d K h sh x T0 Hc Hb Hv Hsh Hh H0 K1 HK Hd Ht Rx.
  destruct (D1 c n _ sh Hc Hb Hv Hh) as (M0 & y & y' & Et & Ry & Ef & Sy & Ry').
  destruct (holds_reads cs s c n sh F H Hc Hv) as (z & Rz & Sz & Uz).
  rewrite (Uz y Ry) in Ef. rewrite (Uz x Rx) in *. clear Ry y. unfold free_init in Et. inv Et. cbn [free_transform] in Ef.
  apply on_columns_ok in Ef. destruct Ef as [Ly Cy].
  exists y'. split; [exact Ry'|]. split; [exact Sy|]. intros j Hj b old new. specialize (Cy j Hj).
  assert (Lc : length (nth j z []) = (K + d)%nat) by (rewrite <- Hsh; apply (proj2 Sz), nth_In, Hj).
  assert (Ht' : 0 <= t < INR K * h) by (rewrite K1; exact Ht).
  destruct (shift_spline_guess tol (nth j z []) t d K h (nth j y' []) T0 H0 HK Ht' Lc Cy) as (L2 & S & P & Q).
  fold b in S, P, Q. rewrite K1 in S, Q. split; [exact P|]. split; [apply Q; exact Hd|].
  assert (BL : blen b = (K + d)%nat) by (apply eq_blen; exact HK). assert (LK : last (knots b) 0 = 1) by (unfold b; rewrite eq_last_knot by auto; exact K1).
  destruct (shift_spline_points tol (nth j z []) t b (nth j y' []) K T0) as (C & B & L & G & _); auto; [rewrite LK; apply Ht|rewrite BL; exact Lc|].
  rewrite LK in *.
  assert (N5 : 0 < INR (no_points - 1)) by (apply lt_0_INR; unfold no_points; lia).
  assert (GP : forall g, grid_pt (shifted_basis t b) g = t + INR g / INR (no_points - 1) * (1 - t)).
  { intros g. unfold grid_pt. rewrite hd_nth, last_nth_R. destruct C as (_ & _ & C1 & C2). rewrite C1, C2. field. lra. }
  assert (EB : forall g, eval_basis (shifted_basis t b) (grid_pt (shifted_basis t b) g) = eval_basis b (INR g / INR (no_points - 1))).
  { intros g. rewrite GP. unfold b at 1. rewrite shifted_equidistant by auto. fold b. rewrite K1.
    replace (t + INR g / INR (no_points - 1) * (1 - t)) with (INR g / INR (no_points - 1) * ((1 - t) / 1) + t) by (field; lra).
    unfold eval_basis. change (degree (scale_basis b ((1 - t) / 1) t)) with (degree b). apply scale_row. lra. }
  intros i Hi. destruct (G i) as (g & Hg & Mx & Pg); [lia|]. exists g. split; [exact Hg|]. split.
  - intros g' Hg'. cbn beta zeta. rewrite <- !EB. apply Mx, Hg'.
  - unfold new. rewrite S. rewrite GP in Pg. replace ((1 - t) / 1) with (1 - t) by field. exact Pg.
Qed.
(** no shift before twice the start time: init_step subtracts start_time from a
    time that is relative already *)
Theorem free_none : forall tol init cs p start now update s, now <= start ->
  free_init_step tol init cs p start now update s = Ok s.
Proof. intros. unfold free_init_step. rewrite (proj2 (Rltb_false 0 (now - start))) by lra. reflexivity. Qed.
Theorem free_shift : forall tol init cs p start now update s s' T col cols, start < now -> family cs -> holds cs s -> In p cs ->
  (forall b, ~ is_spline p "T" b) -> reads s p "T" ((T :: col) :: cols) ->
  init_transformations free_init cs = Ok init ->
  free_init_step tol init cs p start now update s = Ok s' ->
  let shift := if Rlt_dec T (2 * update) then T - update else update in
  let target := if Rlt_dec T (2 * update) then T else T - update in
  holds cs s' /\
  (forall x, reads s' p "T" x -> forall col z, In col x -> In z col -> z = target) /\
  exists s1, holds cs s1 /\ rest_of cs None tol (shift / target) s s1 /\
    same_vars cs s s1 (fun c n => hits None n /\ exists b sh, is_spline c n b /\ is_var c n sh) /\
    same_vars cs s1 s' (fun c n => c = p /\ n = "T"%string).
Proof.
  intros tol init cs p start now update s s' T col cols L F H Hp Ns RT I E shift target. unfold free_init_step in E.
  rewrite (proj2 (Rltb_true 0 (now - start))) in E by lra. apply bind_ok in E. destruct E as (T' & ET & E).
  assert (T' = T). { assert (Q : get_number p "T" s = Ok T) by (apply (get_number_spec cs); eauto). congruence. } subst T'.
  assert (ST : Multi_Model.step_times T update = (shift, target)).
  { unfold Multi_Model.step_times, shift, target. destruct (Rlt_dec T (2 * update)) as [Q|Q].
    - rewrite (proj2 (Rltb_true _ _) Q). reflexivity.
    - rewrite (proj2 (Rltb_false _ _)) by lra. reflexivity. }
  rewrite ST in E. cbn [fst snd] in E. apply bind_ok in E. destruct E as (s1 & E1 & E2).
  destruct (free_rest tol _ init None cs s s1 F H I E1) as (H1 & R1 & V1).
  destruct (set_one_spec cs p "T" _ s1 s' F H1 Hp E2) as (sh & a & Hv & [Sa Va] & H2 & R2 & V2).
  split; [exact H2|]. split.
  - intros x Rx c0 z Hc Hz. assert (x = a). { apply (reads_get cs) in Rx; auto. apply (reads_get cs) in R2; auto. congruence. } subst x. apply (Va c0 z Hc Hz).
  - exists s1. split; [exact H1|]. split; [exact R1|]. split; [exact V1|]. intros c n Hc Hn x. apply V2. intros Q. apply Hn.
    inversion Q as [[Q1 Q2]]. split; [apply (same_child cs); auto|reflexivity].
Qed.

(* ---------- more frames ---------- *)

Theorem frames_none : forall tol init cs p n start now update s, now <= start ->
  frames_init_step tol init cs p n start now update s = Ok s.
Proof. intros. unfold frames_init_step. rewrite (proj2 (Rltb_false 0 (now - start))) by lra. reflexivity. Qed.
Lemma sum_times_spec : forall cs p s n Ts k, family cs -> holds cs s -> In p cs -> length Ts = n ->
  (forall i, (i < n)%nat -> time_of s p (k + i) (nth i Ts 0)) -> sum_times p k n s = Ok (total Ts).
Proof.
  intros cs p s n. induction n as [|n IH]; intros Ts k F H Hp L G; [destruct Ts; [reflexivity|discriminate]|].
  cbn [sum_times]. destruct (exists_last (l := Ts)) as (Ts' & r & ->); [intros ->; discriminate|].
  rewrite app_length in L. cbn in L. assert (L' : length Ts' = n) by lia.
  rewrite (IH Ts' k F H Hp L').
  - cbn [bind]. assert (Q : time_of s p (k + n) r).
    { pose proof (G n (Nat.lt_succ_diag_r n)) as Q. rewrite app_nth2 in Q by lia. rewrite L', Nat.sub_diag in Q. exact Q. }
    destruct Q as (Q1 & col & cols & Q2).
    rewrite (proj2 (get_number_spec cs s p _ r F H Hp Q1)) by eauto. cbn [bind]. f_equal. unfold total. rewrite fold_right_app. cbn.
    clear. induction Ts' as [|a l IH]; cbn; [ring|]. rewrite <- IH. ring.
  - intros i Hi. pose proof (G i (Nat.lt_lt_succ_r _ _ Hi)) as Q. rewrite app_nth1 in Q by lia. exact Q.
Qed.
Theorem frames_shift : forall tol init cs p n start now update s s' Ts, start < now -> family cs -> holds cs s -> In p cs ->
  length Ts = S n -> (forall i, (i < S n)%nat -> time_of s p i (nth i Ts 0)) -> 
  init_transformations free_init cs = Ok init ->
  frames_init_step tol init cs p (S n) start now update s = Ok s' ->
  let T := total Ts in
  let shift := if Rlt_dec T (2 * update) then T - update else update in
  let target := if Rlt_dec T (2 * update) then T else T - update in
  holds cs s' /\
  (forall x, reads s' p "T0" x -> forall col z, In col x -> In z col -> z = nth 0 Ts 0 - shift) /\
  exists s1, holds cs s1 /\ rest_of cs None tol (shift / target) s s1 /\
    same_vars cs s s1 (fun c n => hits None n /\ exists b sh, is_spline c n b /\ is_var c n sh) /\
    same_vars cs s1 s' (fun c n => c = p /\ n = "T0"%string).
Proof.
  intros tol init cs p n start now update s s' Ts L F H Hp LT GT I E T shift target. unfold frames_init_step in E.
  rewrite (proj2 (Rltb_true 0 (now - start))) in E by lra. rewrite (sum_times_spec cs p s (S n) Ts 0 F H Hp LT GT) in E. fold T in E. cbn [bind] in E.
  assert (ST : Multi_Model.step_times T update = (shift, target)).
  { unfold Multi_Model.step_times, shift, target. destruct (Rlt_dec T (2 * update)) as [Q|Q].
    - rewrite (proj2 (Rltb_true _ _) Q). reflexivity.
    - rewrite (proj2 (Rltb_false _ _)) by lra. reflexivity. }
  rewrite ST in E. cbn [fst snd] in E. apply bind_ok in E. destruct E as (s1 & E1 & E2).
  change (transform_primal_splines (free_transform tol (shift / target)) init None cs s = Ok s1) in E1.
  destruct (free_rest tol _ init None cs s s1 F H I E1) as (H1 & R1 & V1).
  apply bind_ok in E2. destruct E2 as (T0 & ET & E2).
  destruct (GT 0%nat (Nat.lt_0_succ n)) as (N0 & col & cols & R0). change ("T" ++ Opti_Model.py_str 0)%string with "T0"%string in N0, R0.
  assert (T0 = nth 0 Ts 0).
  { assert (R0' : reads s1 p "T0" ((nth 0 Ts 0 :: col) :: cols)).
    { apply V1; auto. intros (_ & b & sh & Hb & _). apply (N0 b Hb). }
    assert (Q : get_number p "T0" s1 = Ok (nth 0 Ts 0)) by (apply (get_number_spec cs); eauto). congruence. } subst T0.
  destruct (set_one_spec cs p "T0" _ s1 s' F H1 Hp E2) as (sh & a & Hv & [Sa Va] & H2 & R2 & V2).
  split; [exact H2|]. split.
  - intros x Rx c0 z Hc Hz. assert (x = a). { apply (reads_get cs) in Rx; auto. apply (reads_get cs) in R2; auto. congruence. } subst x. apply (Va c0 z Hc Hz).
  - exists s1. split; [exact H1|]. split; [exact R1|]. split; [exact V1|]. intros c m Hc Hn x. apply V2. intros Q. apply Hn.
    inversion Q as [[Q1 Q2]]. split; [apply (same_child cs); auto|reflexivity].
Qed.

(* ---------- solve ---------- *)

Theorem solve_stores : forall cs start now step reset solver s s1 x status, 
  step (now - start) s = Ok s1 -> solver (cat s1) = (x, status) -> length x = numbers (layout cs) ->
  exists s2, holds cs s2 /\ cat s2 = x /\
    ((status <> "Maximum_CpuTime_Exceeded"%string \/ now = start) -> solve cs start now step reset solver s = Ok s2) /\
    (status = "Maximum_CpuTime_Exceeded"%string -> now <> start -> solve cs start now step reset solver s = reset s2).
Proof.
  intros cs start now step reset solver s s1 x status E1 E2 L. destruct (proj2 (set_all_works cs x) L) as [s2 E3].
  destruct (set_all_spec cs x s2 E3) as [H2 C2]. exists s2. split; [exact H2|]. split; [exact C2|].
  unfold solve. cbn zeta. rewrite E1. cbn [bind]. rewrite E2, E3. cbn [bind]. split.
  - intros [N| ->].
    + rewrite (proj2 (String.eqb_neq _ _)) by exact N. reflexivity.
    + replace (start - start) with 0 by ring. unfold Reqb. destruct (Req_EM_T 0 0) as [_|N]; [|contradiction]. rewrite andb_comm. reflexivity.
  - intros -> N. rewrite String.eqb_refl. unfold Reqb. destruct (Req_EM_T (now - start) 0) as [Z|_]; [lra|]. reflexivity.
Qed.
(** with a motion that starts later the solver is given the old guess until the
    time is past twice the start time *)
Theorem solve_twice : forall tol init cs p start now update reset solver s, now <= 2 * start ->
  solve cs start now (fun rel => free_init_step tol init cs p start rel update) reset solver s =
  solve cs start now (fun _ s => Ok s) reset solver s.
Proof. intros. unfold solve. cbn zeta. rewrite free_none by lra. reflexivity. Qed.

(* ---------- sleep ---------- *)

Lemma call_const : forall b lo hi v x, clamped_on b lo hi -> lo <= x <= hi -> call (mkS b (repeat v (blen b))) x = v.
Proof.
  intros b lo hi v x C Hx. unfold call. cbn [sbasis coeffs].
  assert (G : forall u n, length u = n -> dot u (repeat v n) = total u * v).
  { induction u as [|a u IH]; intros n <-; cbn; [ring|]. rewrite (IH (length u) eq_refl). unfold total. ring. }
  rewrite (G _ _ (blen_eval b x)). rewrite partition_of_unity; [ring|apply C|apply (clamped_in b lo hi); auto].
Qed.
Lemma call_hi : forall b lo hi c, clamped_on b lo hi -> length c = blen b -> call (mkS b c) hi = last c 0.
Proof.
  intros b lo hi c C L. rewrite last_nth_R. destruct (clamped_dom b lo hi C) as [_ D]. destruct C as (W & (C1 & C2 & C3 & C4) & E1 & E2).
  pose proof (call_right_end (mkS b c)) as E. cbn [sbasis coeffs] in E. rewrite D in E. apply E; auto.
  rewrite <- D. exact C4.
Qed.
Lemma nth_combine_map : forall (A B C : Type) (f : A * B -> C) l m j da db dc, (j < length l)%nat -> (j < length m)%nat ->
  nth j (map f (combine l m)) dc = f (nth j l da, nth j m db).
Proof.
  induction l as [|a l IH]; intros [|b m] j da db dc Hl Hm; cbn in *; try lia. destruct j as [|j]; [reflexivity|]. apply IH; lia.
Qed.
Theorem hold_spec : forall cs s c n b sh x, family cs -> holds cs s -> In c cs -> is_spline c n b -> is_var c n sh -> reads s c n x ->
  exists l, hold_segment c n s = Ok l /\ length l = length x /\
  forall lo hi, clamped_on b lo hi -> fst sh = blen b -> forall j t, (j < length x)%nat -> lo <= t <= hi ->
    call (nth j l (mkS b [])) t = call (mkS b (nth j x [])) hi.
Proof.
  intros cs s c n b sh x F H Hc Hb Hv Rx.
  pose proof (get_splines cs s c n b x F H Hc Hb Rx) as G1. pose proof (proj2 (get_array cs s c n x F H Hc) Rx) as G2.
  unfold hold_segment. rewrite G1, G2. eexists. split; [reflexivity|].
  rewrite map_length, combine_length, !map_length, Nat.min_id. split; [reflexivity|].
  intros lo hi C Hsh j t Hj Ht.
  destruct (holds_reads cs s c n sh F H Hc Hv) as (z & Rz & Sz & Uz). rewrite (Uz x Rx) in *.
  assert (Lc : length (nth j z []) = blen b) by (rewrite <- Hsh; apply (proj2 Sz), nth_In, Hj).
  rewrite (nth_combine_map _ _ _ _ _ _ j (mkS b []) 0) by (rewrite map_length; exact Hj). cbn [fst snd].
  rewrite (map_nth (mkS b)). rewrite (nth_indep _ 0 (last [] 0)) by (rewrite map_length; exact Hj). rewrite (map_nth (fun col => last col 0)).
  unfold hold. cbn [sbasis]. rewrite (call_const b lo hi _ t C Ht), (call_hi b lo hi _ C Lc). reflexivity.
Qed.
Theorem sleep_spec : forall cs s c lo hi n k, family cs -> holds cs s -> In c cs ->
  (forall i, (i < n)%nat -> exists b q x, let nm := ("splines_seg" ++ Opti_Model.py_str (k + i))%string in
      is_spline c nm b /\ is_var c nm (blen b, q) /\ clamped_on b lo hi /\ reads s c nm x) ->
  exists ls, sleep_segments c k n s = Ok ls /\ length ls = n /\
  forall i, (i < n)%nat -> forall b x, let nm := ("splines_seg" ++ Opti_Model.py_str (k + i))%string in
    is_spline c nm b -> reads s c nm x -> length (nth i ls []) = length x /\
    forall j t, (j < length x)%nat -> lo <= t <= hi -> call (nth j (nth i ls []) (mkS b [])) t = call (mkS b (nth j x [])) hi.
Proof.
  intros cs s c lo hi n. induction n as [|n IH]; intros k F H Hc W; [exists []; split; [reflexivity|]; split; [reflexivity|intros i Hi; lia]|].
  cbn [sleep_segments]. destruct (W 0%nat (Nat.lt_0_succ n)) as (b & q & x & Hb & Hv & C & Rx). rewrite Nat.add_0_r in *.
  destruct (hold_spec cs s c _ b _ x F H Hc Hb Hv Rx) as (l & El & Ll & Cl). rewrite El. cbn [bind].
  destruct (IH (S k) F H Hc) as (ls & Es & Ls & Cs).
  { intros i Hi. replace (S k + i)%nat with (k + S i)%nat by lia. apply W. lia. }
  rewrite Es. cbn [bind]. exists (l :: ls). split; [reflexivity|]. split; [cbn; lia|].
  intros i Hi b' x' Hb' Rx'. destruct i as [|i].
  - rewrite Nat.add_0_r in *. cbn [nth].
    assert (b' = b) by (apply (spline_unique c ("splines_seg" ++ Opti_Model.py_str k)%string); auto; apply made_sound, F, Hc). subst b'.
    assert (x' = x). { apply (reads_get cs) in Rx; auto. apply (reads_get cs) in Rx'; auto. congruence. } subst x'.
    split; [exact Ll|]. intros j t Hj Ht. apply (Cl lo hi C eq_refl j t Hj Ht).
  - cbn [nth]. replace (k + S i)%nat with (S k + i)%nat in * by lia. apply (Cs i); auto. lia.
Qed.
