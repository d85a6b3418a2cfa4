(** Concrete solutions with cubic splines on one knot interval. *)
From Coq Require Import Reals List Arith Bool ZArith Lia Lra.
From Verif Require Import Spline_Model Spline_Spec Spline_Proofs Spline_Proofs2 Spline_Proofs3 Splop_Model Splop_Spec Splop_Proofs2 Splop_Proofs3
  Splop_Proofs Splop_Proofs4 Concat_Proofs8 Obst_Model Vehicle_Model Vehicle_Spec Lift_Model Lift_Spec Lift_Proofs Lift_Proofs2 Lift_Examples Lift_Examples2.
From Verif Require Timing_Proofs.
Import ListNotations.
Local Open Scope R_scope.

Lemma cbasis_sorted : nondecreasing (knots cbasis).
Proof. knots_ok. Qed.
Lemma cseg_call : forall a b c d u, 0 <= u <= 1 ->
  call (mkS cbasis [a; b; c; d]) u = (1 - u)^3 * a + 3 * u * (1 - u)^2 * b + 3 * u^2 * (1 - u) * c + u^3 * d.
Proof.
  intros a b c d u Hu. destruct (Req_dec u 0) as [->|N]; [rewrite cube_start; ring|].
  assert (0 < u <= 1) by lra. unfold cbasis. piece 3%nat; [field|apply cbasis_sorted].
Qed.
Lemma cbasis_eval : forall u, 0 <= u <= 1 -> eval_basis cbasis u = [(1 - u)^3; 3 * u * (1 - u)^2; 3 * u^2 * (1 - u); u^3].
Proof.
  intros u Hu. apply list_nth_ext; [rewrite blen_eval; reflexivity|].
  intros i Hi. rewrite blen_eval in Hi. cbn in Hi.
  rewrite <- (call_unit cbasis i u) by (cbn; lia).
  destruct i as [|[|[|[|i]]]]; try lia; cbn [blen cbasis length knots degree Nat.sub unitv map seq Nat.eqb nth];
    change (mkB [0; 0; 0; 0; 1; 1; 1; 1] 3) with cbasis; rewrite cseg_call by exact Hu; ring.
Qed.
Lemma cgrid : forall i, grid_pt cbasis i = INR i / 500.
Proof.
  intros. unfold grid_pt, no_points, cbasis. cbn [knots hd last].
  replace (INR (501 - 1)) with 500; [field|]. rewrite INR_IZR_INZ. simpl. reflexivity.
Qed.

Lemma argmax_go_max : forall l i best v f, (best < i)%nat -> f best = v -> (forall j, (j < length l)%nat -> f (i + j)%nat = nth j l 0) ->
  v <= f (argmax_go l i best v) /\ forall j, (j < length l)%nat -> nth j l 0 <= f (argmax_go l i best v).
Proof.
  induction l as [|a l IH]; intros i best v f B V F; cbn [argmax_go].
  - split; [lra|cbn; lia].
  - assert (F' : forall j, (j < length l)%nat -> f (S i + j)%nat = nth j l 0).
    { intros j H. replace (S i + j)%nat with (i + S j)%nat by lia. rewrite F by (cbn; lia). reflexivity. }
    pose proof (F 0%nat ltac:(cbn; lia)) as F0. rewrite Nat.add_0_r in F0. cbn [nth] in F0.
    destruct (Rltb v a) eqn:E.
    + apply Rltb_true in E. destruct (IH (S i) i a f ltac:(lia) F0 F') as [A C]. split; [lra|].
      intros [|j] H; cbn [nth]; [exact A|apply C; cbn in H; lia].
    + apply Rltb_false in E. destruct (IH (S i) best v f ltac:(lia) V F') as [A C]. split; [exact A|].
      intros [|j] H; cbn [nth]; [lra|apply C; cbn in H; lia].
Qed.
Lemma argmax_max : forall l j, (j < length l)%nat -> nth j l 0 <= nth (argmax l) l 0.
Proof.
  intros [|a l] j H; cbn [length] in H; [lia|]. unfold argmax.
  destruct (argmax_go_max l 1 0 a (fun k => nth k (a :: l) 0)) as [A C]; [lia|reflexivity|intros k _; reflexivity|].
  destruct j as [|j]; [exact A|apply C; lia].
Qed.
Lemma argmax_seq : forall (f : nat -> R) n k, (k < n)%nat -> f k <= f (argmax (map f (seq 0 n))).
Proof.
  intros f n k H. pose proof (argmax_max (map f (seq 0 n)) k) as A. rewrite map_length, seq_length in A. specialize (A H).
  assert (M : (argmax (map f (seq 0 n)) < n)%nat).
  { rewrite <- (seq_length n 0) at 2. rewrite <- (map_length f). apply argmax_lt. rewrite map_length, seq_length. lia. }
  rewrite !Timing_Proofs.nth_map_seq in A by assumption. exact A.
Qed.
Lemma maxpos_max : forall b j k, (k < no_points)%nat ->
  nth j (eval_basis b (grid_pt b k)) 0 <= nth j (eval_basis b (grid_pt b (maxpos b j))) 0.
Proof.
  intros b j k H. unfold maxpos. exact (argmax_seq (fun i => nth j (eval_basis b (grid_pt b i)) 0) no_points k H).
Qed.

Lemma cbasis_regular : only_zero (blen cbasis) (colloc cbasis).
Proof.
  change (blen cbasis) with 4%nat. intros y L H. destruct y as [|y0 [|y1 [|y2 [|y3 [|y4 y]]]]]; try discriminate.
  assert (P : forall j, (j < 4)%nat -> exists s, 0 <= s <= 1 /\
     dot [(1 - s)^3; 3 * s * (1 - s)^2; 3 * s^2 * (1 - s); s^3] [y0; y1; y2; y3] = 0 /\
     forall k, (k <= 500)%nat -> let u := INR k / 500 in
       nth j [(1 - u)^3; 3 * u * (1 - u)^2; 3 * u^2 * (1 - u); u^3] 0 <= nth j [(1 - s)^3; 3 * s * (1 - s)^2; 3 * s^2 * (1 - s); s^3] 0).
  { intros j Hj. exists (grid_pt cbasis (maxpos cbasis j)). pose proof (grid_frac _ (maxpos_lt cbasis j)) as G. rewrite <- cgrid in G.
    split; [exact G|]. rewrite <- cbasis_eval by exact G. split.
    - apply H. unfold colloc. apply in_map_iff. exists j. split; [reflexivity|apply in_seq; change (blen cbasis) with 4%nat; lia].
    - intros k Hk u. assert (K : (k < no_points)%nat) by (unfold no_points; lia).
      pose proof (maxpos_max cbasis j k K) as M. rewrite cgrid in M. fold u in M.
      rewrite (cbasis_eval u) in M by (apply grid_frac, K). exact M. }
  assert (I1 : INR 125 / 500 = 1/4) by (rewrite INR_IZR_INZ; simpl; field).
  assert (I2 : INR 375 / 500 = 3/4) by (rewrite INR_IZR_INZ; simpl; field).
  destruct (P 0%nat ltac:(lia)) as (s & S & D0 & M0). destruct (P 1%nat ltac:(lia)) as (p & S1 & D1 & M1).
  destruct (P 2%nat ltac:(lia)) as (q & S2 & D2 & M2). destruct (P 3%nat ltac:(lia)) as (r & S3 & D3 & M3). clear P H.
  specialize (M0 0%nat ltac:(lia)). cbn [nth] in M0. replace (INR 0 / 500) with 0 in M0 by (cbn; field).
  specialize (M3 500%nat ltac:(lia)). cbn [nth] in M3. replace (INR 500 / 500) with 1 in M3 by (rewrite INR_500; field).
  specialize (M1 125%nat ltac:(lia)). cbn [nth] in M1. rewrite I1 in M1.
  specialize (M2 375%nat ltac:(lia)). cbn [nth] in M2. rewrite I2 in M2.
  assert (s = 0).
  { assert (X : 0 <= s * (1 - s) * (2 - s)) by (repeat apply Rmult_le_pos; lra).
    assert ((1 - s)^3 = 1 - s - s * (1 - s) * (2 - s)) by ring. lra. }
  assert (r = 1).
  { assert (X : 0 <= r * (1 - r) * (1 + r)) by (repeat apply Rmult_le_pos; lra).
    assert (r^3 = r - r * (1 - r) * (1 + r)) by ring. lra. }
  subst s r. cbn [dot] in *.
  assert (y0 = 0) by lra. assert (y3 = 0) by lra. subst y0 y3.
  assert (p0 : p <> 0) by (intros ->; lra). assert (p < 1/2).
  { destruct (Rlt_dec p (1/2)); [assumption|]. exfalso.
    assert (p * (1 - p) <= 1/4) by (pose proof (Rle_0_sqr (p - 1/2)) as Q; unfold Rsqr in Q; lra).
    assert (Y : (p * (1 - p)) * (1 - p) <= 1/4 * (1/2)) by (apply Rmult_le_compat; try lra; apply Rmult_le_pos; lra).
    assert (3 * p * (1 - p)^2 = 3 * ((p * (1 - p)) * (1 - p))) by ring. lra. }
  assert (q0 : q <> 1) by (intros ->; lra). assert (1/2 < q).
  { destruct (Rlt_dec (1/2) q); [assumption|]. exfalso.
    assert (q * (1 - q) <= 1/4) by (pose proof (Rle_0_sqr (q - 1/2)) as Q; unfold Rsqr in Q; lra).
    assert (Y : (q * (1 - q)) * q <= 1/4 * (1/2)) by (apply Rmult_le_compat; try lra; apply Rmult_le_pos; lra).
    assert (3 * q^2 * (1 - q) = 3 * ((q * (1 - q)) * q)) by ring. lra. }
  assert (E1 : (1 - p) * y1 + p * y2 = 0).
  { assert (Z : (3 * p * (1 - p)) * ((1 - p) * y1 + p * y2) = 0) by lra.
    apply Rmult_integral in Z. destruct Z as [Z|Z]; [|exact Z].
    assert (0 < 3 * p * (1 - p)) by (repeat apply Rmult_lt_0_compat; lra). lra. }
  assert (E2 : (1 - q) * y1 + q * y2 = 0).
  { assert (Z : (3 * q * (1 - q)) * ((1 - q) * y1 + q * y2) = 0) by lra.
    apply Rmult_integral in Z. destruct Z as [Z|Z]; [|exact Z].
    assert (0 < 3 * q * (1 - q)) by (repeat apply Rmult_lt_0_compat; lra). lra. }
  assert (Y2 : (q - p) * y2 = 0).
  { replace ((q - p) * y2) with ((1 - p) * ((1 - q) * y1 + q * y2) - (1 - q) * ((1 - p) * y1 + p * y2)) by ring. rewrite E1, E2. ring. }
  apply Rmult_integral in Y2. destruct Y2 as [Y2|Y2]; [lra|]. subst y2.
  assert (Y1 : (1 - p) * y1 = 0) by lra. apply Rmult_integral in Y1. destruct Y1 as [Y1|Y1]; [lra|]. subst y1. reflexivity.
Qed.

Lemma nd_in : forall (a : R) l, In a l -> nodup Req_EM_T (a :: l) = nodup Req_EM_T l.
Proof. intros a l H. cbn [nodup]. destruct (in_dec Req_EM_T a l); [reflexivity|contradiction]. Qed.
Lemma nd_out : forall (a : R) l, ~ In a l -> nodup Req_EM_T (a :: l) = a :: nodup Req_EM_T l.
Proof. intros a l H. cbn [nodup]. destruct (in_dec Req_EM_T a l); [contradiction|reflexivity]. Qed.
Ltac nd01 := repeat first
  [ rewrite nd_in by (cbn [In]; tauto)
  | rewrite nd_out by (cbn [In]; intros ND; decompose [or] ND; try lra; try contradiction) ]; reflexivity.
Ltac basis01' l :=
  assert (ND : nodup Req_EM_T l = [0; 1]) by nd01; rewrite ND; clear ND;
  cbn [flat_map]; unfold lifted, occurrences; simpl;
  repeat (match goal with |- context [Req_EM_T ?a ?c] => destruct (Req_EM_T a c); try lra end); simpl;
  assert (T00 : Rleb 0 0 = true) by (apply Rleb_true; lra);
  assert (T01 : Rleb 0 1 = true) by (apply Rleb_true; lra);
  assert (T11 : Rleb 1 1 = true) by (apply Rleb_true; lra);
  repeat (rewrite ?T11, ?T01, ?T00; simpl); reflexivity.
Lemma b_mzc : basis_mul zbasis cbasis = cbasis.
Proof. unfold basis_mul, combine_bases, zbasis, cbasis. cbn [degree knots app]. f_equal. basis01' [0; 1; 0; 0; 0; 0; 1; 1; 1; 1]. Qed.
Lemma b_azc : basis_add zbasis cbasis = cbasis.
Proof. unfold basis_add, combine_bases, zbasis, cbasis. cbn [degree knots app]. f_equal. basis01' [0; 1; 0; 0; 0; 0; 1; 1; 1; 1]. Qed.
Lemma b_acz : basis_add cbasis zbasis = cbasis.
Proof. unfold basis_add, combine_bases, zbasis, cbasis. cbn [degree knots app]. f_equal. basis01' [0; 0; 0; 0; 1; 1; 1; 1; 0; 1]. Qed.
Lemma b_acc : basis_add cbasis cbasis = cbasis.
Proof. unfold basis_add, combine_bases, zbasis, cbasis. cbn [degree knots app]. f_equal. basis01' [0; 0; 0; 0; 1; 1; 1; 1; 0; 0; 0; 0; 1; 1; 1; 1]. Qed.

(* kinds of results: number, constant, parabola, cubic *)
Inductive kin := IN | IZ | IO | IC.
Definition is_kin (k : kin) (o : pyobj) : Prop :=
  match k, o with
  | IN, Num _ => True
  | IZ, Spl s => sbasis s = zbasis
  | IO, Spl s => sbasis s = obasis
  | IC, Spl s => sbasis s = cbasis
  | _, _ => False
  end.
Definition i_add (a b : kin) : option kin :=
  match a, b with IN, k => Some k | k, IN => Some k | IZ, k => Some k | k, IZ => Some k | IO, IO => Some IO | IC, IC => Some IC | _, _ => None end.
Definition i_mul (a b : kin) : option kin :=
  match a, b with IN, k => Some k | k, IN => Some k | IZ, k => Some k | _, _ => None end.
Fixpoint kin_of (D : nat -> kin) (e : sx) : option kin :=
  match e with
  | SV i o => match o with O => Some (D i) | _ => None end
  | SN _ => Some IN
  | SAdd a b | SSub a b => match kin_of D a, kin_of D b with Some x, Some y => i_add x y | _, _ => None end
  | SMul a b => match kin_of D a, kin_of D b with Some x, Some y => i_mul x y | _, _ => None end
  | SNeg a => kin_of D a
  | SPow a n => match kin_of D a with Some IN => Some IN | _ => None end
  end.
Lemma add_kin : forall tol x y z a b, is_kin x a -> is_kin y b -> i_add x y = Some z ->
  exists o, o_add tol a b = Some o /\ is_kin z o.
Proof.
  intros tol x y z a b Ha Hb Hz.
  destruct x, a as [r|s]; cbn in Ha; try contradiction; destruct y, b as [q|t]; cbn in Hb; try contradiction; cbn [i_add] in Hz;
    try discriminate; injection Hz as <-; cbn [o_add is_kin];
    try (eexists; split; [reflexivity|]; first [exact Logic.I | exact Ha | exact Hb]).
  all: destruct (add_ok tol s t) as [u U];
    [rewrite Ha, Hb; first [rewrite b_azz; apply zbasis_regular | rewrite b_azo; apply obasis_regular
                           | rewrite b_aoz; apply obasis_regular | rewrite b_aoo; apply obasis_regular
                           | rewrite b_azc; apply cbasis_regular | rewrite b_acz; apply cbasis_regular | rewrite b_acc; apply cbasis_regular]|];
    rewrite U; eexists; split; [reflexivity|]; cbn [is_kin]; rewrite (add_basis _ _ _ _ U), Ha, Hb;
    first [apply b_azz | apply b_azo | apply b_aoz | apply b_aoo | apply b_azc | apply b_acz | apply b_acc].
Qed.
Lemma mul_kin : forall tol x y z a b, is_kin x a -> is_kin y b -> i_mul x y = Some z ->
  exists o, o_mul tol a b = Some o /\ is_kin z o.
Proof.
  intros tol x y z a b Ha Hb Hz.
  destruct x, a as [r|s]; cbn in Ha; try contradiction; destruct y, b as [q|t]; cbn in Hb; try contradiction; cbn [i_mul] in Hz;
    try discriminate; injection Hz as <-; cbn [o_mul is_kin];
    try (eexists; split; [reflexivity|]; first [exact Logic.I | exact Ha | exact Hb]).
  all: destruct (mul_ok tol s t) as [u U];
    [rewrite Ha, Hb; first [rewrite b_mzz; apply zbasis_regular | rewrite b_mzo; apply obasis_regular
                           | rewrite b_mzc; apply cbasis_regular]|];
    rewrite U; eexists; split; [reflexivity|]; cbn [is_kin]; rewrite (mul_basis _ _ _ _ U), Ha, Hb;
    first [apply b_mzz | apply b_mzo | apply b_mzc].
Qed.
Lemma neg_kin : forall k o, is_kin k o -> is_kin k (o_neg o).
Proof. intros [] [r|s] H; cbn in *; auto. Qed.
Lemma build_kin : forall tol X D e k, (forall i, is_kin (D i) (Spl (X i))) -> kin_of D e = Some k ->
  exists o, build tol X e = Some o /\ is_kin k o.
Proof.
  intros tol X D e k HX. revert k.
  induction e as [i o|r|a IHa b IHb|a IHa b IHb|a IHa b IHb|a IHa|a IHa n]; intros k E; cbn [kin_of build] in *.
  - destruct o; [|discriminate]. injection E as <-. eexists. split; [reflexivity|]. cbn [derivative]. apply HX.
  - injection E as <-. eexists. split; [reflexivity|exact Logic.I].
  - destruct (kin_of D a) as [x|]; [|discriminate]. destruct (kin_of D b) as [y|]; [|discriminate].
    destruct (IHa x eq_refl) as (u & -> & Hu). destruct (IHb y eq_refl) as (v & -> & Hv). apply (add_kin tol x y k); auto.
  - destruct (kin_of D a) as [x|]; [|discriminate]. destruct (kin_of D b) as [y|]; [|discriminate].
    destruct (IHa x eq_refl) as (u & -> & Hu). destruct (IHb y eq_refl) as (v & -> & Hv). unfold o_sub. apply (add_kin tol x y k); auto using neg_kin.
  - destruct (kin_of D a) as [x|]; [|discriminate]. destruct (kin_of D b) as [y|]; [|discriminate].
    destruct (IHa x eq_refl) as (u & -> & Hu). destruct (IHb y eq_refl) as (v & -> & Hv). apply (mul_kin tol x y k); auto.
  - destruct (IHa k E) as (u & -> & Hu). eexists. split; [reflexivity|apply neg_kin, Hu].
  - destruct (kin_of D a) as [[]|]; try discriminate. injection E as <-. destruct (IHa IN eq_refl) as (u & -> & Hu).
    destruct u as [r|s]; [|contradiction]. cbn. eexists. split; [reflexivity|exact Logic.I].
Qed.

(* a cubic from its values at 0, 1/3, 2/3 and 1 *)
Lemma cubic_coeffs : forall s, sbasis s = cbasis -> sized s ->
  coeffs s = [call s 0; - (5/6) * call s 0 + 3 * call s (1/3) - 3/2 * call s (2/3) + 1/3 * call s 1;
              1/3 * call s 0 - 3/2 * call s (1/3) + 3 * call s (2/3) - 5/6 * call s 1; call s 1].
Proof.
  intros [b c] E Z. cbn in E. subst b. unfold sized in Z. cbn in Z.
  destruct c as [|c0 [|c1 [|c2 [|c3 [|c4 c]]]]]; try discriminate.
  rewrite !cseg_call by lra. cbn [coeffs]. repeat (f_equal; [field|]). f_equal. field.
Qed.
Lemma solved_kin : forall X D e k, (forall i, is_kin (D i) (Spl (X i))) -> fits X e -> kin_of D e = Some k ->
  let v x := sval (jets X x) e in
  v 0 <= 0 -> v 1 <= 0 -> 2 * v (1/2) - (v 0 + v 1) / 2 <= 0 ->
  - (5/6) * v 0 + 3 * v (1/3) - 3/2 * v (2/3) + 1/3 * v 1 <= 0 ->
  1/3 * v 0 - 3/2 * v (1/3) + 3 * v (2/3) - 5/6 * v 1 <= 0 ->
  solved 0 X [le0 e].
Proof.
  intros X D e k HX F K w H0 H1 Hm Hp Hq c [<-|[]]. destruct (build_kin 0 X D e k HX K) as (o & B & HK).
  exists o. split; [exact B|]. destruct (build_good _ _ _ _ F B) as [G _].
  assert (V : forall x, 0 <= x <= 1 -> val o x = w x).
  { intros x I. pose proof (build_close 0 X e o x (Rle_refl 0) F I B) as C. rewrite drift_0 in C. apply close_0, C. }
  intros v Hv. split; [exact Logic.I|]. cbn [le0 chi]. destruct o as [r|s]; [destruct Hv|]. cbn [entries kept] in Hv.
  cbn [val] in V. destruct k; cbn in HK; [contradiction| | |].
  - rewrite (constant_coeffs s HK (proj2 G)), V in Hv by lra. destruct Hv as [<-|[]]. exact H0.
  - rewrite (parabola_coeffs s HK (proj2 G)), !V in Hv by lra.
    destruct Hv as [<-|[<-|[<-|[]]]]; assumption.
  - rewrite (cubic_coeffs s HK (proj2 G)), !V in Hv by lra.
    destruct Hv as [<-|[<-|[<-|[<-|[]]]]]; assumption.
Qed.
Lemma jets_c : forall X i c0 c1 c2 c3 x, X i = mkS cbasis [c0; c1; c2; c3] -> 0 <= x <= 1 ->
  jets X x i 0%nat = (1 - x) ^ 3 * c0 + 3 * x * (1 - x) ^ 2 * c1 + 3 * x ^ 2 * (1 - x) * c2 + x ^ 3 * c3.
Proof.
  intros X i c0 c1 c2 c3 x E I. unfold jets. cbn [derivative]. rewrite E. apply cseg_call, I.
Qed.
Lemma c_unit : forall a b c d, on_unit (mkS cbasis [a; b; c; d]).
Proof. intros. destruct (cube_regular a b c d) as (A & B & _). split; [exact A|exact B]. Qed.
