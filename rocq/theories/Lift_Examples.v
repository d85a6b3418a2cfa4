(** Concrete solutions for the examples: splines of degree 0 and 2 on one
    knot interval, for which every sum and the products used here succeed. *)
From Coq Require Import Reals List Arith Bool ZArith Lia Lra.
From Verif Require Import Spline_Model Spline_Spec Spline_Proofs Splop_Model Splop_Spec Splop_Proofs2 Splop_Proofs3 Splop_Proofs4
  Obst_Model Vehicle_Model Vehicle_Spec Lift_Model Lift_Spec Lift_Proofs Lift_Proofs2.
Import ListNotations.
Local Open Scope R_scope.

Definition zbasis : bbasis := mkB [0; 1] 0.
Lemma zbasis_clamped : clamped_on zbasis 0 1.
Proof. split; [split; [knots_ok|simpl; lia]|]. unfold clamped; simpl. repeat split; lra. Qed.

Ltac basis01 := 
  repeat match goal with |- context [nodup Req_EM_T ?l] =>
    replace (nodup Req_EM_T l) with [0; 1]
    by (simpl; repeat (match goal with |- context [Req_EM_T ?a ?c] => destruct (Req_EM_T a c); try lra end);
        try reflexivity;
        repeat (match goal with |- context [in_dec Req_EM_T ?a ?c] => destruct (in_dec Req_EM_T a c) as [I|I]; simpl in I end);
        try tauto; try (exfalso; intuition lra)) end;
  cbn [flat_map]; unfold lifted, occurrences; simpl;
  repeat (match goal with |- context [Req_EM_T ?a ?c] => destruct (Req_EM_T a c); try lra end); simpl;
  assert (T00 : Rleb 0 0 = true) by (apply Rleb_true; lra);
  assert (T01 : Rleb 0 1 = true) by (apply Rleb_true; lra);
  assert (T11 : Rleb 1 1 = true) by (apply Rleb_true; lra);
  repeat (rewrite ?T11, ?T01, ?T00; simpl); reflexivity.
Lemma b_mzz : basis_mul zbasis zbasis = zbasis.
Proof. unfold basis_mul, combine_bases, zbasis, obasis. cbn [degree knots app]. f_equal. basis01. Qed.
Lemma b_mzo : basis_mul zbasis obasis = obasis.
Proof. unfold basis_mul, combine_bases, zbasis, obasis. cbn [degree knots app]. f_equal. basis01. Qed.
Lemma b_moz : basis_mul obasis zbasis = obasis.
Proof. unfold basis_mul, combine_bases, zbasis, obasis. cbn [degree knots app]. f_equal. basis01. Qed.
Lemma b_azz : basis_add zbasis zbasis = zbasis.
Proof. unfold basis_add, combine_bases, zbasis, obasis. cbn [degree knots app]. f_equal. basis01. Qed.
Lemma b_azo : basis_add zbasis obasis = obasis.
Proof. unfold basis_add, combine_bases, zbasis, obasis. cbn [degree knots app]. f_equal. basis01. Qed.
Lemma b_aoz : basis_add obasis zbasis = obasis.
Proof. unfold basis_add, combine_bases, zbasis, obasis. cbn [degree knots app]. f_equal. basis01. Qed.
Lemma b_aoo : basis_add obasis obasis = obasis.
Proof. unfold basis_add, combine_bases, zbasis, obasis. cbn [degree knots app]. f_equal. basis01. Qed.

Lemma zbasis_eval : forall u, 0 <= u <= 1 -> eval_basis zbasis u = [1].
Proof.
  intros u Hu.
  pose proof (partition_of_unity zbasis u (proj1 zbasis_clamped) (clamped_in _ _ _ _ zbasis_clamped Hu)) as K.
  assert (L : length (eval_basis zbasis u) = 1%nat).
  { rewrite eval_basis_length. reflexivity. }
  destruct (eval_basis zbasis u) as [|a [|b l]]; try discriminate. cbn in K. f_equal. lra.
Qed.
Lemma zgrid : forall k, (k < no_points)%nat -> 0 <= grid_pt zbasis k <= 1.
Proof.
  intros k M. pose proof (grid_frac _ M) as G. unfold grid_pt, zbasis. cbn [knots hd last].
  assert (E : INR (no_points - 1) = 500) by (unfold no_points; cbn [Nat.sub]; apply INR_500).
  rewrite E. replace (0 + INR k * ((1 - 0) / 500)) with (INR k / 500) by field. exact G.
Qed.
Lemma zcolloc : forall r, In r (colloc zbasis) -> r = [1].
Proof.
  intros r H. unfold colloc in H. apply in_map_iff in H. destruct H as (j & E & _). subst r.
  apply zbasis_eval. apply zgrid. apply maxpos_lt.
Qed.
Lemma colloc_length : forall b, length (colloc b) = blen b.
Proof. intros b. unfold colloc. rewrite map_length, seq_length. reflexivity. Qed.
Lemma zbasis_regular : only_zero (blen zbasis) (colloc zbasis).
Proof.
  intros y L H. pose proof (colloc_length zbasis) as CL.
  destruct (colloc zbasis) as [|r l] eqn:EC; [discriminate CL|].
  pose proof (zcolloc r) as ZR. rewrite EC in ZR. specialize (ZR (or_introl eq_refl)). specialize (H r (or_introl eq_refl)).
  change (blen zbasis) with 1%nat in *. destruct y as [|y0 [|y1 y]]; try discriminate.
  subst r. cbn [dot] in H. cbn [repeat]. f_equal. lra.
Qed.

Lemma transform_ok : forall tol b other w, only_zero (blen b) (colloc b) -> exists T, transform tol b other w = Some T.
Proof. intros. apply transform_total. assumption. Qed.
Lemma add_ok : forall tol s t, only_zero (blen (basis_add (sbasis s) (sbasis t))) (colloc (basis_add (sbasis s) (sbasis t))) ->
  exists u, add_spline tol s t = Some u.
Proof.
  intros tol s t R. unfold add_spline, transform_basis.
  destruct (transform_ok tol _ (fun i => eval_basis (sbasis s) (grid_pt (basis_add (sbasis s) (sbasis t)) i)) (blen (sbasis s)) R) as [T1 ->].
  destruct (transform_ok tol _ (fun i => eval_basis (sbasis t) (grid_pt (basis_add (sbasis s) (sbasis t)) i)) (blen (sbasis t)) R) as [T2 ->].
  eexists. reflexivity.
Qed.
Lemma mul_ok : forall tol s t, only_zero (blen (basis_mul (sbasis s) (sbasis t))) (colloc (basis_mul (sbasis s) (sbasis t))) ->
  exists u, mul_spline tol s t = Some u.
Proof.
  intros tol s t R. unfold mul_spline.
  destruct (transform_ok tol _ (product_row (basis_mul (sbasis s) (sbasis t)) (sbasis s) (sbasis t)) (length (pairs (sbasis s) (sbasis t))) R) as [T ->].
  eexists. reflexivity.
Qed.
Lemma add_basis : forall tol s t u, add_spline tol s t = Some u -> sbasis u = basis_add (sbasis s) (sbasis t).
Proof. intros tol s t u E. apply (add_spline_basis _ _ _ _ E). Qed.
Lemma mul_basis : forall tol s t u, mul_spline tol s t = Some u -> sbasis u = basis_mul (sbasis s) (sbasis t).
Proof.
  intros tol s t u E. unfold mul_spline in E. destruct (transform _ _ _ _); [|discriminate]. injection E as <-. reflexivity.
Qed.

(* kinds of results: number, constant, parabola *)
Inductive kind := KN | KZ | KO.
Definition has_kind (k : kind) (o : pyobj) : Prop :=
  match k, o with
  | KN, Num _ => True
  | KZ, Spl s => sbasis s = zbasis
  | KO, Spl s => sbasis s = obasis
  | _, _ => False
  end.
Definition k_add (a b : kind) : kind :=
  match a, b with KN, k => k | k, KN => k | KZ, k => k | KO, _ => KO end.
Definition k_mul (a b : kind) : option kind :=
  match a, b with KN, k => Some k | k, KN => Some k | KZ, k => Some k | KO, KZ => Some KO | KO, KO => None end.
Fixpoint kind_of (D : nat -> kind) (e : sx) : option kind :=
  match e with
  | SV i o => match o with O => Some (D i) | _ => None end
  | SN _ => Some KN
  | SAdd a b | SSub a b => match kind_of D a, kind_of D b with Some x, Some y => Some (k_add x y) | _, _ => None end
  | SMul a b => match kind_of D a, kind_of D b with Some x, Some y => k_mul x y | _, _ => None end
  | SNeg a => kind_of D a
  | SPow a n => match kind_of D a with Some KN => Some KN | Some KZ => None | _ => None end
  end.
Lemma add_kind : forall tol x y a b, has_kind x a -> has_kind y b ->
  exists o, o_add tol a b = Some o /\ has_kind (k_add x y) o.
Proof.
  intros tol x y a b Ha Hb.
  destruct x, a as [r|s]; cbn in Ha; try contradiction; destruct y, b as [q|t]; cbn in Hb; try contradiction; cbn [o_add k_add has_kind];
    try (eexists; split; [reflexivity|]; first [exact Logic.I | exact Ha | exact Hb]).
  all: destruct (add_ok tol s t) as [u U];
    [rewrite Ha, Hb; first [rewrite b_azz; apply zbasis_regular | rewrite b_azo; apply obasis_regular
                           | rewrite b_aoz; apply obasis_regular | rewrite b_aoo; apply obasis_regular]|];
    rewrite U; eexists; split; [reflexivity|]; cbn [has_kind]; rewrite (add_basis _ _ _ _ U), Ha, Hb;
    first [apply b_azz | apply b_azo | apply b_aoz | apply b_aoo].
Qed.
Lemma mul_kind : forall tol x y z a b, has_kind x a -> has_kind y b -> k_mul x y = Some z ->
  exists o, o_mul tol a b = Some o /\ has_kind z o.
Proof.
  intros tol x y z a b Ha Hb Hz.
  destruct x, a as [r|s]; cbn in Ha; try contradiction; destruct y, b as [q|t]; cbn in Hb; try contradiction; cbn [k_mul] in Hz;
    try discriminate; injection Hz as <-; cbn [o_mul has_kind];
    try (eexists; split; [reflexivity|]; first [exact Logic.I | exact Ha | exact Hb]).
  all: destruct (mul_ok tol s t) as [u U];
    [rewrite Ha, Hb; first [rewrite b_mzz; apply zbasis_regular | rewrite b_mzo; apply obasis_regular
                           | rewrite b_moz; apply obasis_regular]|];
    rewrite U; eexists; split; [reflexivity|]; cbn [has_kind]; rewrite (mul_basis _ _ _ _ U), Ha, Hb;
    first [apply b_mzz | apply b_mzo | apply b_moz].
Qed.
Lemma neg_kind : forall k o, has_kind k o -> has_kind k (o_neg o).
Proof. intros [] [r|s] H; cbn in *; auto. Qed.
Lemma build_kind : forall tol X D e k, (forall i, has_kind (D i) (Spl (X i))) -> kind_of D e = Some k ->
  exists o, build tol X e = Some o /\ has_kind k o.
Proof.
  intros tol X D e k HX. revert k.
  induction e as [i o|r|a IHa b IHb|a IHa b IHb|a IHa b IHb|a IHa|a IHa n]; intros k E; cbn [kind_of build] in *.
  - destruct o; [|discriminate]. injection E as <-. eexists. split; [reflexivity|]. cbn [derivative]. apply HX.
  - injection E as <-. eexists. split; [reflexivity|exact Logic.I].
  - destruct (kind_of D a) as [x|]; [|discriminate]. destruct (kind_of D b) as [y|]; [|discriminate]. injection E as <-.
    destruct (IHa x eq_refl) as (u & -> & Hu). destruct (IHb y eq_refl) as (v & -> & Hv). apply add_kind; auto.
  - destruct (kind_of D a) as [x|]; [|discriminate]. destruct (kind_of D b) as [y|]; [|discriminate]. injection E as <-.
    destruct (IHa x eq_refl) as (u & -> & Hu). destruct (IHb y eq_refl) as (v & -> & Hv). unfold o_sub. apply add_kind; auto using neg_kind.
  - destruct (kind_of D a) as [x|]; [|discriminate]. destruct (kind_of D b) as [y|]; [|discriminate].
    destruct (IHa x eq_refl) as (u & -> & Hu). destruct (IHb y eq_refl) as (v & -> & Hv). apply (mul_kind tol x y k); auto.
  - destruct (IHa k E) as (u & -> & Hu). eexists. split; [reflexivity|apply neg_kind, Hu].
  - destruct (kind_of D a) as [[]|]; try discriminate. injection E as <-. destruct (IHa KN eq_refl) as (u & -> & Hu).
    destruct u as [r|s]; [|contradiction]. cbn. eexists. split; [reflexivity|exact Logic.I].
Qed.

(* a parabola is under its bound if these three numbers are *)
Lemma parabola_coeffs : forall s, sbasis s = obasis -> sized s ->
  coeffs s = [call s 0; 2 * call s (1/2) - (call s 0 + call s 1) / 2; call s 1].
Proof.
  intros [b c] E Z. cbn in E. subst b. unfold sized in Z. cbn in Z.
  destruct c as [|c0 [|c1 [|c2 [|c3 c]]]]; try discriminate. unfold call. cbn [sbasis coeffs].
  rewrite !obasis_eval by lra. cbn [dot]. f_equal; [field|]. f_equal; [field|]. f_equal. field.
Qed.
Lemma constant_coeffs : forall s, sbasis s = zbasis -> sized s -> coeffs s = [call s 0].
Proof.
  intros [b c] E Z. cbn in E. subst b. unfold sized in Z. cbn in Z.
  destruct c as [|c0 [|c1 c]]; try discriminate. unfold call. cbn [sbasis coeffs].
  rewrite zbasis_eval by lra. cbn [dot]. f_equal. ring.
Qed.
Lemma solved_kind : forall X D e k, (forall i, has_kind (D i) (Spl (X i))) -> fits X e -> kind_of D e = Some k ->
  sval (jets X 0) e <= 0 -> sval (jets X 1) e <= 0 ->
  2 * sval (jets X (1/2)) e - (sval (jets X 0) e + sval (jets X 1) e) / 2 <= 0 ->
  solved 0 X [le0 e].
Proof.
  intros X D e k HX F K H0 H1 Hm c [<-|[]]. destruct (build_kind 0 X D e k HX K) as (o & B & HK).
  exists o. split; [exact B|]. destruct (build_good _ _ _ _ F B) as [G _].
  assert (V : forall x, 0 <= x <= 1 -> val o x = sval (jets X x) e).
  { intros x I. pose proof (build_close 0 X e o x (Rle_refl 0) F I B) as C. rewrite drift_0 in C. apply close_0, C. }
  intros v Hv. split; [exact Logic.I|]. cbn [le0 chi]. destruct o as [r|s]; [destruct Hv|]. cbn [entries kept] in Hv.
  cbn [val] in V. destruct k; cbn in HK; [contradiction| |].
  - rewrite (constant_coeffs s HK (proj2 G)), V in Hv by lra. destruct Hv as [<-|[]]. exact H0.
  - rewrite (parabola_coeffs s HK (proj2 G)), !V in Hv by lra.
    destruct Hv as [<-|[<-|[<-|[]]]]; assumption.
Qed.
Lemma solved_cons : forall tol X c cs, solved tol X [c] -> solved tol X cs -> solved tol X (c :: cs).
Proof. intros tol X c cs H1 H2 d [<-|H]; [apply H1; left; reflexivity|apply H2, H]. Qed.
Lemma solved_nil : forall tol X, solved tol X [].
Proof. intros tol X c []. Qed.
Lemma jets_z : forall X i c x, X i = mkS zbasis [c] -> 0 <= x <= 1 -> jets X x i 0%nat = c.
Proof.
  intros X i c x E I. unfold jets. cbn [derivative]. rewrite E. unfold call. cbn [sbasis coeffs].
  rewrite zbasis_eval by exact I. cbn [dot]. ring.
Qed.
Lemma jets_o : forall X i c0 c1 c2 x, X i = mkS obasis [c0; c1; c2] -> 0 <= x <= 1 ->
  jets X x i 0%nat = (1 - x) ^ 2 * c0 + 2 * x * (1 - x) * c1 + x ^ 2 * c2.
Proof.
  intros X i c0 c1 c2 x E I. unfold jets. cbn [derivative]. rewrite E. unfold call. cbn [sbasis coeffs].
  rewrite obasis_eval by exact I. cbn [dot]. ring.
Qed.
