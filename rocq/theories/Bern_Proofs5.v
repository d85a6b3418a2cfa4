(** Tables of polynomials: solved constraints, start and terminal constraints,
    positions, for the examples. *)
From Coq Require Import Reals List Arith Bool ZArith Lia Lra.
From Verif Require Import Spline_Model Spline_Spec Spline_Proofs Splop_Model Splop_Spec 
  Vehicle_Model Vehicle_Spec Vehicle_Proofs Wheel_Model Quad_Model Lift_Model Lift_Spec Lift_Proofs Lift_Proofs2 Bern_Spec Bern_Proofs Bern_Proofs2 Bern_Proofs3 Bern_Proofs4
  Trip_Model Trip_Spec Trip_Proofs Trip_Proofs2.
Import ListNotations.
Local Open Scope R_scope.

(** the spline has the degree and is the polynomial of the table entry *)
Definition tab (s : bspline) (p : nat * list R) : Prop :=
  sbasis s = bern (fst p) /\ length (coeffs s) = S (fst p) /\ forall x, 0 <= x <= 1 -> call s x = peval (snd p) x.
Definition env (P : nat -> nat * list R) (x : R) : nat -> jet := fun i o => peval (pders o (snd (P i))) x.
Lemma tab_regular : forall s p n, tab s p -> (n <= fst p)%nat -> regular n s.
Proof. intros [b c] p n (B & L & _) N. cbn in B, L. rewrite B. apply regular_bern; assumption. Qed.
Lemma tab_jets : forall X P i o x, tab (X i) (P i) -> (o <= fst (P i))%nat -> 0 <= x <= 1 -> jets X x i o = env P x i o.
Proof.
  intros X P i o x H O Ix. apply (jets_poly (fst (P i)) (X i)); [apply (tab_regular _ (P i)); [exact H|apply le_n]|apply H|exact O|exact Ix].
Qed.
(** orders within the degrees, no zeroth power *)
Fixpoint okx (D : nat -> nat) (e : sx) : bool :=
  match e with
  | SV i o => (o <=? D i)%nat
  | SN _ => true
  | SAdd a b | SSub a b | SMul a b => okx D a && okx D b
  | SNeg a => okx D a
  | SPow a n => okx D a && (1 <=? n)%nat
  end.
Fixpoint lowx (D : nat -> nat) (e : sx) : bool :=
  match deg_of D e with Some d => (d <=? 250)%nat | None => true end &&
  match e with
  | SAdd a b | SSub a b | SMul a b => lowx D a && lowx D b
  | SNeg a | SPow a _ => lowx D a
  | _ => true
  end.
Section Table.
Variables (X : nat -> bspline) (P : nat -> nat * list R).
Hypothesis HT : forall i, tab (X i) (P i).
Let D i := fst (P i).
Lemma okx_polynomial : forall e, okx D e = true -> polynomial X D e.
Proof.
  induction e as [i o|r|a IHa b IHb|a IHa b IHb|a IHa b IHb|a IHa|a IHa n]; cbn [okx polynomial]; intros H; try exact I;
    try (apply andb_prop in H; destruct H as [H1 H2]; split; [apply IHa, H1|apply IHb, H2]).
  - apply Nat.leb_le in H. destruct (HT i) as (B & L & _). repeat split; assumption.
  - apply IHa, H.
  - apply andb_prop in H. destruct H as [H1 H2]. apply Nat.leb_le in H2. split; [apply IHa, H1|exact H2].
Qed.
Lemma lowx_below : forall e, lowx D e = true -> below_degree 250 D e.
Proof.
  assert (Q : forall o : option nat, match o with Some d => (d <=? 250)%nat | None => true end = true -> match o with Some d => (d <= 250)%nat | None => True end)
    by (intros [d|] H; [apply Nat.leb_le, H|exact I]).
  induction e as [i o|r|a IHa b IHb|a IHa b IHb|a IHa b IHb|a IHa|a IHa n]; cbn [lowx below_degree]; intros H;
    apply andb_prop in H; destruct H as [H1 H2]; (split; [apply Q, H1|]); try exact I;
    try (apply andb_prop in H2; destruct H2 as [H2 H3]; split; [apply IHa, H2|apply IHb, H3]); apply IHa, H2.
Qed.
Lemma env_sval : forall e x, okx D e = true -> 0 <= x <= 1 -> sval (jets X x) e = sval (env P x) e.
Proof.
  intros e x H Ix. induction e as [i o|r|a IHa b IHb|a IHa b IHb|a IHa b IHb|a IHa|a IHa n]; cbn [okx sval] in *;
    try (apply andb_prop in H; destruct H as [H1 H2]; rewrite IHa, IHb by assumption; reflexivity).
  - apply Nat.leb_le in H. apply tab_jets; [apply HT|exact H|exact Ix].
  - reflexivity.
  - rewrite IHa by exact H. reflexivity.
  - apply andb_prop in H. rewrite IHa by apply H. reflexivity.
Qed.
Definition bsum (k : nat) (l : list R) (x : R) : R :=
  fold_right Rplus 0 (map (fun j => nth j l 0 * (pc k j * x ^ j * (1 - x) ^ (k - j))) (seq 0 (S k))).
Theorem solved_tab : forall c k l, okx D (cexpr c) = true -> lowx D (cexpr c) = true ->
  match deg_of D (cexpr c) with Some d => (k <=? d)%nat | None => false end = true -> length l = S k ->
  (forall x, sval (env P x) (cexpr c) = bsum k l x) ->
  Forall (fun v => match clo c with None => True | Some b => b <= v end /\ v <= chi c) l -> solved 0 X [c].
Proof.
  intros c k l O B G L V H. destruct (deg_of D (cexpr c)) as [d|] eqn:E; [|discriminate]. apply Nat.leb_le in G.
  apply (solved_low X D c d k l); [apply okx_polynomial, O|apply lowx_below, B|exact E|exact G|exact L| |].
  - intros x Ix. rewrite env_sval by assumption. rewrite V. symmetry. apply bern_call; assumption.
  - intros v Hv. rewrite Forall_forall in H. apply H, Hv.
Qed.
(** an expression without raised error is a spline with its values *)
Theorem built_val : forall e, okx D e = true -> lowx D e = true -> (match deg_of D e with Some _ => true | None => false end) = true ->
  exists s, build 0 X e = Some (Spl s) /\ on_unit s /\ forall x, 0 <= x <= 1 -> call s x = sval (env P x) e.
Proof.
  intros e O B G. destruct (deg_of D e) as [d|] eqn:Ed; [|discriminate]. pose proof (okx_polynomial e O) as PO.
  destruct (build_poly 0 X D e PO (lowx_below e B)) as (o & E & K). rewrite Ed in K. destruct o as [r|s]; cbn in K; [contradiction|].
  exists s. split; [exact E|]. pose proof (poly_fits X D _ PO) as F. destruct (build_good 0 X _ _ F E) as [U _]. split; [exact U|].
  intros x Ix. pose proof (build_close 0 X _ _ x (Rle_refl 0) F Ix E) as C. rewrite drift_0 in C. cbn [val] in C.
  rewrite <- env_sval by assumption. unfold Rabs in C. destruct (Rcase_abs (call s x - sval (jets X x) e)); lra.
Qed.
Theorem starts_tab : forall tau tuples, 0 <= tau <= 1 ->
  Forall (fun tup => match tup with
    | e :: SN r :: _ => (okx D e && lowx D e && match deg_of D e with Some _ => true | None => false end)%bool = true /\ sval (env P tau) e = r
    | _ => False end) tuples -> starts 0 X tau tuples.
Proof.
  intros tau tuples It H tup Ht. rewrite Forall_forall in H. specialize (H tup Ht).
  destruct tup as [|e [|[|r| | | | |] rest]]; try contradiction. destruct H as [O E]. apply andb_prop in O. destruct O as [O O3].
  apply andb_prop in O. destruct O as [O1 O2]. destruct (built_val e O1 O2 O3) as (s & B & U & V).
  exists s, r. split; [exact B|]. split; [reflexivity|]. rewrite evalspline_call by apply U. rewrite V by exact It. rewrite E. ring.
Qed.
Theorem stops_tab : forall cs, Forall (fun c => match fst c with SV i o => (o <=? D i)%nat = true /\ env P 1 i o = snd c | _ => False end) cs -> stops 0 X cs.
Proof.
  intros cs H c Hc. rewrite Forall_forall in H. specialize (H c Hc). destruct c as [[i o| | | | | |] r]; cbn [fst snd] in *; try contradiction.
  destruct H as [O E]. apply Nat.leb_le in O. exists (derivative (X i) o). split; [reflexivity|].
  pose proof (tab_jets X P i o 1 (HT i) O ltac:(lra)) as J. unfold jets in J. rewrite J, E. ring.
Qed.
(** an expression without raised error, as spline *)
Theorem built_tab : forall e d l, okx D e = true -> lowx D e = true -> deg_of D e = Some d -> (forall x, sval (env P x) e = peval l x) ->
  exists s, build 0 X e = Some (Spl s) /\ tab s (d, l).
Proof.
  intros e d l O B G V. pose proof (okx_polynomial e O) as PO.
  destruct (build_poly 0 X D e PO (lowx_below e B)) as (o & E & K). rewrite G in K. destruct o as [r|s]; cbn in K; [contradiction|].
  exists s. split; [exact E|]. pose proof (poly_fits X D _ PO) as F. destruct (build_good 0 X _ _ F E) as [[SC SZ] _].
  split; [exact K|]. split; [unfold sized in SZ; rewrite SZ, K; apply bern_blen|]. intros x Ix.
  pose proof (build_close 0 X _ _ x (Rle_refl 0) F Ix E) as C. rewrite drift_0 in C. cbn [val] in C.
  cbn [snd]. rewrite <- V, <- env_sval by assumption. unfold Rabs in C. destruct (Rcase_abs (call s x - sval (jets X x) e)); lra.
Qed.
End Table.
Lemma integrate_tab : forall s d l x0 T l', 0 < T -> tab s (d, l) -> (forall x, peval (pder l') x = T * peval l x) -> peval l' 0 = x0 ->
  tab (integrate_spline s x0 0 T) (S d, l').
Proof.
  intros s d l x0 T l' PT H E Z. pose proof (tab_regular s (d, l) 0 H (Nat.le_0_l _)) as Rg. destruct H as (B & L & V). cbn [fst snd] in *.
  split; [apply integrate_bern, B|]. split; [apply integrate_length; [apply Rg|exact B]|].
  set (m := padd [0] (map (fun a => a / T) (tl l'))).
  assert (PM : forall w c x, peval (map (fun a => a / c) w) x = peval w x / c) by (intros w c x; induction w as [|a w IH]; cbn [map peval]; [|rewrite IH]; unfold Rdiv; ring).
  intros x Ix. cbn [snd].
  rewrite (integrate_poly s d x0 T l (0 :: map (fun a => a / T) (tl l')) PT Rg B V); [| |cbn [peval]; ring|exact Ix].
  - cbn [peval]. rewrite PM. destruct l' as [|a l']; cbn [tl peval] in *; [subst x0; cbn [peval]; field; lra|]. rewrite <- Z. field. lra.
  - intros y. assert (DM : forall w c, pder (map (fun a => a / c) w) = map (fun a => a / c) (pder w)).
    { assert (PA : forall u w c, padd (map (fun a => a / c) u) (map (fun a => a / c) w) = map (fun a => a / c) (padd u w)).
      { induction u as [|a u IH]; intros [|b w] c; cbn [map padd]; try reflexivity. rewrite IH. f_equal. unfold Rdiv. ring. }
      intros w c. induction w as [|a w IH]; [reflexivity|]. cbn [map pder]. rewrite IH.
      replace (0 :: map (fun a0 => a0 / c) (pder w)) with (map (fun a0 => a0 / c) (0 :: pder w)) by (cbn [map]; f_equal; unfold Rdiv; ring). apply PA. }
    specialize (E y). destruct l' as [|a l'].
    + cbn [tl map pder padd peval] in *. assert (Q : peval l y = 0) by nra. rewrite Q. ring.
    + cbn [tl]. replace (pder (0 :: map (fun a0 => a0 / T) l')) with (map (fun a0 => a0 / T) (pder (a :: l'))).
      * rewrite PM, E. field. lra.
      * change (pder (0 :: map (fun a0 => a0 / T) l')) with (pder (0 / T :: map (fun a0 => a0 / T) l')) || idtac. symmetry.
        transitivity (pder (map (fun a0 => a0 / T) (a :: l'))); [reflexivity|apply DM].
Qed.
(** the position splines of a table *)
Theorem position_tab : forall X P x0 y0 T dx dy lx ly px py, (forall i, tab (X i) (P i)) -> 0 < T ->
  let D i := fst (P i) in
  okx D til_dx_sx = true -> lowx D til_dx_sx = true -> deg_of D til_dx_sx = Some dx ->
  okx D til_dy_sx = true -> lowx D til_dy_sx = true -> deg_of D til_dy_sx = Some dy ->
  (forall x, sval (env P x) til_dx_sx = peval lx x) -> (forall x, sval (env P x) til_dy_sx = peval ly x) ->
  (forall x, peval (pder px) x = T * peval lx x) -> (forall x, peval (pder py) x = T * peval ly x) -> peval px 0 = x0 -> peval py 0 = y0 ->
  exists p, wheel_position 0 X (x0, y0) 0 T = Some p /\ tab (fst p) (S dx, px) /\ tab (snd p) (S dy, py).
Proof.
  intros X P x0 y0 T dx dy lx ly px py HT PT D O1 B1 G1 O2 B2 G2 V1 V2 E1 E2 Z1 Z2.
  destruct (built_tab X P HT til_dx_sx dx lx O1 B1 G1 V1) as (s1 & Q1 & T1).
  destruct (built_tab X P HT til_dy_sx dy ly O2 B2 G2 V2) as (s2 & Q2 & T2).
  eexists. unfold wheel_position. rewrite Q1, Q2. cbn [spline_of]. split; [reflexivity|]. cbn [fst snd].
  split; eapply integrate_tab; eassumption.
Qed.
Theorem axis_tab : forall X P pos0 vel0 T k d l lv lp, (forall i, tab (X i) (P i)) -> 0 < T ->
  let D i := fst (P i) in
  okx D (quad3d_dd k) = true -> lowx D (quad3d_dd k) = true -> deg_of D (quad3d_dd k) = Some d ->
  (forall x, sval (env P x) (quad3d_dd k) = peval l x) ->
  (forall x, peval (pder lv) x = T * peval l x) -> (forall x, peval (pder lp) x = T * peval lv x) -> peval lv 0 = vel0 k -> peval lp 0 = pos0 k ->
  exists m, quad3d_axis 0 X pos0 vel0 0 T k = Some m /\ tab (fst m) (S (S d), lp) /\ tab (snd m) (S d, lv).
Proof.
  intros X P pos0 vel0 T k d l lv lp HT PT D O B G V E1 E2 Z1 Z2.
  destruct (built_tab X P HT _ d l O B G V) as (s & Q & TS). eexists. unfold quad3d_axis. rewrite Q. cbn [spline_of]. split; [reflexivity|].
  cbn [integrate_twice_spline fst snd].
  assert (TV : tab (integrate_spline s (vel0 k) 0 T) (S d, lv)) by (eapply integrate_tab; eassumption).
  split; [eapply integrate_tab; eassumption|exact TV].
Qed.
