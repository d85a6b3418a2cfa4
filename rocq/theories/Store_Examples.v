(** A vehicle and a problem with their variables; what goes wrong. *)
From Coq Require Import String Ascii Reals List Arith Bool Lia Lra ZArith QArith_base.
From Verif Require Import Spline_Model Spline_Spec Spline_Proofs Spline_Proofs2 Spline_Proofs3 Spline_Proofs5
  Splop_Model Splop_Spec Splop_Proofs Splop_Proofs2 Splop_Proofs3 Splop_Proofs4 Shift_Model Shift_Spec Shift_Proofs8
  Store_Model Store_Spec Store_Proofs Store_Proofs2 Store_Proofs3 Store_Proofs4 Store_Proofs5.
From Verif Require Opti_Model.
Import ListNotations.
Local Open Scope R_scope.
Local Notation length := List.length.

Definition kb : bbasis := equidistant 1 2 (1 / 2).
Definition ops_v (name : string) (c : list R) : list op := [Group KVar name 1 1 kb (Some (VArr [c]))].
Definition veh (c : list R) : child := run_ops (ops_v "splines_seg0" c) (new_child "holonomic0").
Definition prob : child := run_ops [Plain KVar "T" 1 1 (Some (VNum 3))] (new_child "p2p0").
Definition probg : child := run_ops (ops_v "g0" [0; 1; 0]) (new_child "p2p0").
Definition line : list R := [0; 1 / 2; 1].
Definition hump : list R := [0; 1; 0].
Definition cs_T : list child := [veh line; prob].
Definition cs_g : list child := [veh hump; probg].
Definition s_T : store := [(("holonomic0", "splines_seg0"), [line]); (("p2p0", "T"), [[3]])]%string.
Definition s_g : store := [(("holonomic0", "splines_seg0"), [hump]); (("p2p0", "g0"), [hump])]%string.

Lemma fam2 : forall c1 c2 ops1 ops2 l1 l2, c1 = run_ops ops1 (new_child l1) -> c2 = run_ops ops2 (new_child l2) ->
  label c1 = l1 -> label c2 = l2 -> l1 <> l2 -> family [c1; c2].
Proof.
  intros c1 c2 ops1 ops2 l1 l2 E1 E2 L1 L2 N. split.
  - cbn. rewrite L1, L2. constructor; [intros [X|[]]; congruence|]. constructor; [intros []|constructor].
  - intros c [<-|[<-|[]]]; [exists ops1|exists ops2]; congruence.
Qed.
Lemma fam_T : family cs_T.
Proof. apply (fam2 _ _ (ops_v "splines_seg0" line) [Plain KVar "T" 1 1 (Some (VNum 3))] "holonomic0" "p2p0"); try reflexivity. discriminate. Qed.
Lemma fam_g : family cs_g.
Proof. apply (fam2 _ _ (ops_v "splines_seg0" hump) (ops_v "g0" hump) "holonomic0" "p2p0"); try reflexivity. discriminate. Qed.
Lemma start_T : init_variables cs_T = Ok s_T.
Proof. reflexivity. Qed.
Lemma start_g : init_variables cs_g = Ok s_g.
Proof. reflexivity. Qed.
Lemma holds_T : holds cs_T s_T. Proof. apply init_holds, start_T. Qed.
Lemma holds_g : holds cs_g s_g. Proof. apply init_holds, start_g. Qed.
Lemma kb_half : 0 < 1 / 2. Proof. lra. Qed.
Lemma kb_clamped : clamped_on kb 0 1.
Proof. pose proof (eq_clamped_on 1 2 (1 / 2) kb_half (le_n 2)) as C. replace (INR 2 * (1 / 2)) with 1 in C by (cbn; field). exact C. Qed.
Lemma kb_blen : blen kb = 3%nat. Proof. reflexivity. Qed.
Lemma var_v : forall c, is_var (veh c) "splines_seg0" (3, 1)%nat. Proof. intros c. left. reflexivity. Qed.
Lemma spl_v : forall c, is_spline (veh c) "splines_seg0" kb. Proof. intros c. left. reflexivity. Qed.
Lemma nohas : forall n, String.index 0 "seg" n = None -> ~ has_seg n.
Proof.
  intros n E (p & r & En). assert (Q : "seg"%string <> ""%string) by discriminate.
  apply (index_correct3 0 (String.length p) "seg"%string n E Q); [lia|]. apply sub_seg. exists p, r. auto.
Qed.
Lemma hit_v : ~ unreadable "splines_seg0" /\ hits None "splines_seg0".
Proof.
  destruct (seg_names "splines_" 0 "") as [A B].
  - apply nohas; reflexivity. 
  - cbn in A, B. split; [exact A|apply B; reflexivity].
Qed.
Lemma nohit_g : ~ has_seg "g0".
Proof. apply nohas; reflexivity. Qed.
Lemma nohit_has : forall a n, ~ has_seg n -> ~ hits a n.
Proof. intros a n H (d & k & F & _). apply H, (first_has n d F). Qed.
Lemma read_nohas : forall n, ~ has_seg n -> ~ unreadable n.
Proof. intros n H [U _]. contradiction. Qed.

(* ---------- the fixed motion time: the slack is left behind ---------- *)

Lemma call_line : forall x, 0 <= x <= 1 -> call (mkS kb line) x = x.
Proof.
  intros x Hx. assert (E : line = greville kb).
  { unfold greville, kb, line. cbn. f_equal; [field|]. f_equal; [field|]. f_equal. field. }
  rewrite E. apply greville_identity; [apply kb_clamped|cbn; lia|apply (clamped_in kb 0 1); [exact kb_clamped|exact Hx]].
Qed.
Lemma kb_mid : eval_basis kb (1 / 2) = [0; 1; 0].
Proof.
  assert (D : in_domain kb (1 / 2)) by (apply (clamped_in kb 0 1); [exact kb_clamped|lra]).
  assert (W : well_formed kb) by apply kb_clamped.
  pose proof (partition_of_unity kb (1 / 2) W D) as P. pose proof (call_line (1 / 2) ltac:(lra)) as G. unfold call in G. cbn [sbasis coeffs] in G.
  destruct (active_exists kb (1 / 2) W D) as [J A].
  pose proof (blen_eval kb (1 / 2)) as L. rewrite kb_blen in L.
  assert (S : forall i, (i < 3)%nat -> nth i (eval_basis kb (1 / 2)) 0 <> 0 -> (i <= J <= i + 1)%nat) by (intros i Hi Hn; apply (eval_supported kb (1 / 2) J i W A Hi Hn)).
  destruct (eval_basis kb (1 / 2)) as [|a [|b [|c [|? ?]]]]; cbn in L; try lia. unfold line in G. cbn in P, G.
  assert (Z : a = 0 \/ c = 0).
  { destruct (Req_dec a 0) as [Ha|Ha]; [left; exact Ha|]. destruct (Req_dec c 0) as [Hc|Hc]; [right; exact Hc|]. exfalso.
    pose proof (S 0%nat ltac:(lia) Ha). pose proof (S 2%nat ltac:(lia) Hc). lia. }
  assert (a = 0 /\ b = 1 /\ c = 0) as (-> & -> & ->) by (destruct Z; subst; repeat split; lra). reflexivity.
Qed.
Lemma call_left : forall c, length c = 3%nat -> call (mkS kb c) 0 = nth 0 c 0.
Proof.
  intros c L. unfold call. cbn [sbasis coeffs]. apply dot_one; rewrite ?blen_eval; [rewrite L; reflexivity|rewrite kb_blen; lia| |].
  - apply (eval_left kb 0 1 0 kb_clamped). rewrite kb_blen. lia.
  - intros j Hj Hn. rewrite (eval_left kb 0 1 j kb_clamped Hj). rewrite (proj2 (Nat.eqb_neq j 0) Hn). reflexivity.
Qed.
(** before the step the slack bounds the spline, after it no longer *)
Theorem slack_refuted : exists tol cs init s s' v p,
  0 <= tol /\ family cs /\ holds cs s /\ In v cs /\ In p cs /\
  init_transformations (fixed_init tol) cs = Ok init /\
  fixed_init_step init cs (inject_Z 1 * 1) (inject_Z 0 * 1) (inject_Z 1 * 1) s = Ok ((inject_Z 1 * 1)%Q, s') /\
  exists b x g x' g', reads s v "splines_seg0" [x] /\ reads s p "g0" [g] /\ reads s' v "splines_seg0" [x'] /\ reads s' p "g0" [g'] /\
    (forall t, 0 <= t <= 1 -> call (mkS b x) t <= call (mkS b g) t) /\ call (mkS b g') 0 < call (mkS b x') 0.
Proof.
  destruct (fixed_works 0 cs_g 1%Q 1 0 1 s_g fam_g holds_g) as (init & [q s'] & I & E).
  { intros c n b sh Hc Hb Hv. 
    assert (Q : (n = "splines_seg0"%string \/ n = "g0"%string) /\ b = kb /\ sh = (3, 1)%nat).
    { destruct Hc as [<-|[<-|[]]]; destruct Hb as [Hb|[]]; destruct Hv as [Hv|[]]; inversion Hb; inversion Hv; subst; auto. }
    destruct Q as (Hn & -> & ->). split.
    - destruct Hn as [-> | ->]; [apply hit_v|apply read_nohas, nohit_g].
    - exists 1%nat, 2%nat, (1 / 2). split; [reflexivity|]. split; [lra|]. repeat split; lia. }
  assert (L : (0 / 1 < 1 / 1)%Z) by reflexivity.
  assert (Q1 : (0 < 1)%Q) by (unfold Qlt; cbn; lia).
  destruct (fixed_shift 0 init cs_g 1%Q 1 0 1 s_g q s' Q1 ltac:(lia) ltac:(lia) ltac:(lia) L fam_g holds_g I E) as (-> & H' & D & V).
  exists 0, cs_g, init, s_g, s', (veh hump), probg. split; [lra|]. split; [exact fam_g|]. split; [exact holds_g|].
  split; [left; reflexivity|]. split; [right; left; reflexivity|]. split; [exact I|]. split; [exact E|].
  assert (Rv : reads s_g (veh hump) "splines_seg0" [hump]) by (left; reflexivity).
  assert (Rg : reads s_g probg "g0" [hump]) by (right; left; reflexivity).
  destruct (D (veh hump) "splines_seg0"%string 1%nat 2%nat (1 / 2) (3, 1)%nat [hump]) as (x' & Rx' & Sx' & Cx'); auto; try lra; try lia;
    [left; reflexivity|apply spl_v|apply var_v|apply hit_v|].
  destruct Sx' as [Lx Sx]. destruct x' as [|y [|? ?]]; cbn in Lx; try lia.
  destruct (Cx' 0%nat (Nat.lt_0_succ 0)) as [A _]. cbn [nth coeffs] in A.
  exists kb, hump, hump, y, hump. split; [exact Rv|]. split; [exact Rg|]. split; [exact Rx'|]. split.
  - apply (V probg "g0"%string); [right; left; reflexivity| |exact Rg]. intros [Hh _]. apply (nohit_has _ _ nohit_g Hh).
  - split; [intros; lra|]. specialize (A 0 ltac:(cbn; lra)). rewrite Rmult_0_l in A. apply close_0 in A. fold kb in A. rewrite A.
    rewrite call_left by reflexivity. unfold call. cbn [sbasis coeffs]. replace (0 + 1 / 2) with (1 / 2) by ring. rewrite kb_mid. cbn. lra.
Qed.

(* ---------- the free motion time: the guess does not start at the vehicle ---------- *)

Lemma shifted_kb_regular : forall t, t < 1 -> only_zero (blen (shifted_basis t kb)) (colloc (shifted_basis t kb)).
Proof.
  intros t Ht. assert (LK : last (knots kb) 0 = 1) by (unfold kb; rewrite eq_last_knot by (lra || lia); cbn; field).
  destruct (shifted_clamped kb t 2 eq_refl (le_n 2)) as [C B]; [rewrite LK; exact Ht|]. rewrite LK in C.
  set (b := shifted_basis t kb) in *. rewrite kb_blen in B. rewrite B. intros y Ly H.
  assert (R : forall j, (j < 3)%nat -> dot (eval_basis b (grid_pt b (maxpos b j))) y = 0).
  { intros j Hj. apply H. unfold colloc. apply in_map_iff. exists j. split; [reflexivity|apply in_seq; lia]. }
  pose proof (R 0%nat ltac:(lia)) as R0. pose proof (R 1%nat ltac:(lia)) as R1. pose proof (R 2%nat ltac:(lia)) as R2.
  rewrite (Store_Proofs4.maxpos_first b t 1 C), (grid_0 b t 1 C) in R0.
  assert (M2 : maxpos b 2 = (no_points - 1)%nat). { pose proof (Store_Proofs4.maxpos_last b t 1 C) as M. rewrite B in M. apply M. cbn. lia. }
  rewrite M2, (grid_last b t 1 C) in R2.
  assert (LE : forall x, length (eval_basis b x) = 3%nat) by (intros x; rewrite blen_eval; exact B).
  rewrite (dot_one _ y 0) in R0; rewrite ?LE; auto; try lia.
  2:{ rewrite (eval_left b t 1 0 C) by lia. reflexivity. }
  2:{ intros j Hj Hn. rewrite (eval_left b t 1 j C) by lia. rewrite (proj2 (Nat.eqb_neq j 0) Hn). reflexivity. }
  rewrite (dot_one _ y 2) in R2; rewrite ?LE; auto; try lia.
  2:{ rewrite (eval_right b t 1 2 C) by lia. rewrite B. reflexivity. }
  2:{ intros j Hj Hn. rewrite (eval_right b t 1 j C) by lia. rewrite B. rewrite (proj2 (Nat.eqb_neq j _)) by (cbn; lia). reflexivity. }
  assert (P1 : 0 < nth 1 (eval_basis b (grid_pt b (maxpos b 1))) 0).
  { apply Rlt_le_trans with (nth 1 (eval_basis b (grid_pt b 250)) 0).
    - assert (G : grid_pt b 250 = 1 / 2 * (1 - t) + t).
      { unfold grid_pt. rewrite hd_nth, last_nth_R. destruct C as (_ & _ & C1 & C2). rewrite C1, C2.
        change (no_points - 1)%nat with 500%nat. rewrite INR_500, INR_250. field. }
      rewrite G. unfold b. unfold kb at 1. rewrite shifted_equidistant by (lra || lia). fold kb.
      replace (INR 2 * (1 / 2)) with 1 by (cbn; field). replace ((1 - t) / 1) with (1 - t) by field.
      unfold eval_basis. change (degree (scale_basis kb (1 - t) t)) with (degree kb). rewrite scale_row by lra.
      change (basis_row kb (1 / 2) (degree kb)) with (eval_basis kb (1 / 2)). rewrite kb_mid. cbn. lra.
    - apply (argmax_max (fun i => nth 1 (eval_basis b (grid_pt b i)) 0) no_points 250). unfold no_points. lia. }
  destruct y as [|y0 [|y1 [|y2 [|? ?]]]]; cbn in Ly; try lia. cbn in R0, R2. subst y0 y2.
  specialize (LE (grid_pt b (maxpos b 1))). destruct (eval_basis b (grid_pt b (maxpos b 1))) as [|e0 [|e1 [|e2 [|? ?]]]]; cbn in LE; try lia.
  cbn in P1, R1. assert (Y : y1 = 0) by nra. subst y1. reflexivity.
Qed.
Lemma shift_kb : forall tol t c, t < 1 -> exists c2, shift_spline tol c t kb = Some c2.
Proof.
  intros tol t c Ht. unfold shift_spline, transform_basis.
  destruct (transform_total tol (shifted_basis t kb) (fun i => eval_basis kb (grid_pt (shifted_basis t kb) i)) (blen kb) (shifted_kb_regular t Ht)) as [T E].
  rewrite E. eexists. reflexivity.
Qed.
Lemma noT : ~ has_seg "T".
Proof. apply nohas; reflexivity. Qed.
Lemma T_nospline : forall b, ~ is_spline prob "T" b.
Proof. intros b []. Qed.
Lemma read_T : reads s_T prob "T" [[3]]. Proof. right. left. reflexivity. Qed.
Lemma free_run : forall tol start now, start < now -> exists init s', init_transformations free_init cs_T = Ok init /\
  free_init_step tol init cs_T prob start now 1 s_T = Ok s'.
Proof.
  intros tol start now L.
  destruct (transform_primal_works _ free_init (free_transform tol (1 / (3 - 1))) None cs_T s_T fam_T holds_T) as (init & s1 & I & E).
  { intros c n b sh Hc Hb Hv.
    assert (Q : n = "splines_seg0"%string /\ c = veh line /\ b = kb /\ sh = (3, 1)%nat).
    { destruct Hc as [<-|[<-|[]]]; [|destruct Hb]. destruct Hb as [Hb|[]]; destruct Hv as [Hv|[]]; inversion Hb; inversion Hv; subst; auto. }
    destruct Q as (-> & -> & -> & ->). split; [apply hit_v|]. exists None. split; [reflexivity|]. intros _ x Rx.
    assert (x = [line]). { destruct Rx as [Rx|[Rx|[]]]; inversion Rx; reflexivity. } subst x.
    destruct (shift_kb tol (1 / (3 - 1)) line ltac:(lra)) as [c2 Ec]. cbn [free_transform]. unfold on_columns. cbn [map]. rewrite Ec. cbn [oall].
    exists [c2]. split; [reflexivity|]. split; [reflexivity|]. intros col [<-|[]].
    unfold shift_spline in Ec. destruct (transform_basis _ _ _); [|discriminate]. inversion Ec. rewrite cols_dot_length. reflexivity. }
  destruct (free_rest tol _ init None cs_T s_T s1 fam_T holds_T I E) as (H1 & _ & _).
  assert (VT : is_var prob "T" (1, 1)%nat) by (left; reflexivity).
  destruct (proj2 (set_one_works cs_T prob "T" (VNum (3 - 1)) s1 fam_T ltac:(right; left; reflexivity))) as [s' Es].
  { exists (1, 1)%nat, [[3 - 1]]. split; [exact VT|]. split; [split; [reflexivity|]; intros col [<-|[]]; reflexivity|].
    intros col z [<-|[]] [<-|[]]. reflexivity. }
  exists init, s'. split; [exact I|]. unfold free_init_step. rewrite (proj2 (Rltb_true 0 (now - start))) by lra.
  rewrite (proj2 (get_number_spec cs_T s_T prob "T" 3 fam_T holds_T ltac:(right; left; reflexivity) T_nospline)) by (exists [], []; exact read_T).
  cbn [bind]. unfold Multi_Model.step_times. rewrite (proj2 (Rltb_false 3 (2 * 1))) by lra. cbn [fst snd]. rewrite E. cbn [bind]. exact Es.
Qed.
(** the new guess does not start at the point of the old one after the update time *)
Theorem free_start_refuted : exists cs init p v s s' T update b x x', family cs /\ holds cs s /\ In p cs /\ In v cs /\
  init_transformations free_init cs = Ok init /\ free_init_step 0 init cs p 0 1 update s = Ok s' /\
  0 < update < T /\ reads s p "T" [[T]] /\ reads s' p "T" [[T - update]] /\
  is_spline v "splines_seg0" b /\ reads s v "splines_seg0" [x] /\ reads s' v "splines_seg0" [x'] /\
  call (mkS b x') 0 <> call (mkS b x) (update / T).
Proof.
  destruct (free_run 0 0 1 Rlt_0_1) as (init & s' & I & E).
  destruct (free_shift 0 init cs_T prob 0 1 1 s_T s' 3 [] [] Rlt_0_1 fam_T holds_T ltac:(right; left; reflexivity) T_nospline read_T I E) as (H' & TT & s1 & H1 & R1 & V1 & V2).
  destruct (Rlt_dec 3 (2 * 1)) as [Q|_]; [lra|].
  destruct (R1 (veh line) "splines_seg0"%string 1%nat 2%nat (1 / 2) (3, 1)%nat [line]) as (x' & Rx' & Sx' & Cx'); try lra; try lia; try reflexivity.
  { left; reflexivity. } { apply spl_v. } { apply var_v. } { apply hit_v. } { cbn. field. } { left. reflexivity. }
  destruct Sx' as [Lx Sx]. destruct x' as [|y [|? ?]]; cbn in Lx; try lia.
  destruct (Cx' 0%nat (Nat.lt_0_succ 0)) as [A _]. cbn [nth coeffs] in A. rewrite Rmult_0_l in A. apply close_0 in A. fold kb in A.
  rewrite call_line in A by lra.
  exists cs_T, init, prob, (veh line), s_T, s', 3, 1, kb, line, y.
  split; [exact fam_T|]. split; [exact holds_T|]. split; [right; left; reflexivity|]. split; [left; reflexivity|]. split; [exact I|]. split; [exact E|].
  split; [lra|]. split; [exact read_T|]. split.
  - assert (VT : is_var prob "T" (1, 1)%nat) by (left; reflexivity).
    destruct (holds_reads cs_T s' prob "T" _ fam_T H' ltac:(right; left; reflexivity) VT) as (a & Ra & [La Sa] & _).
    destruct a as [|col [|? ?]]; cbn in La; try lia. pose proof (Sa col (or_introl eq_refl)) as Lc. destruct col as [|z [|? ?]]; cbn in Lc; try lia.
    rewrite <- (TT _ Ra [z] z (or_introl eq_refl) (or_introl eq_refl)). exact Ra.
  - split; [apply spl_v|]. split; [left; reflexivity|]. split.
    + apply (V2 (veh line) "splines_seg0"%string); [left; reflexivity| |exact Rx']. intros [X _]. apply (f_equal label) in X. discriminate.
    + rewrite A, call_line by lra. lra.
Qed.
(** the time is past the start, but the guess is not taken along *)
Theorem twice_start_refuted : exists cs init p s start now update, family cs /\ holds cs s /\ In p cs /\
  init_transformations free_init cs = Ok init /\ start < now /\ reads s p "T" [[3]] /\ 2 * update < 3 /\
  (forall reset solver, solve cs start now (fun rel => free_init_step 0 init cs p start rel update) reset solver s =
     solve cs start now (fun _ s => Ok s) reset solver s) /\
  exists s', free_init_step 0 init cs p 0 (now - start) update s = Ok s' /\ ~ reads s' p "T" [[3]].
Proof.
  destruct (free_run 0 0 1 Rlt_0_1) as (init & s' & I & E).
  exists cs_T, init, prob, s_T, 5, 6, 1. split; [exact fam_T|]. split; [exact holds_T|]. split; [right; left; reflexivity|]. split; [exact I|].
  split; [lra|]. split; [exact read_T|]. split; [lra|]. split; [intros; apply solve_twice; lra|].
  exists s'. replace (6 - 5) with 1 by ring. split; [exact E|]. intros R.
  destruct (free_shift 0 init cs_T prob 0 1 1 s_T s' 3 [] [] Rlt_0_1 fam_T holds_T ltac:(right; left; reflexivity) T_nospline read_T I E) as (H' & TT & _).
  pose proof (TT _ R [3] 3 (or_introl eq_refl) (or_introl eq_refl)) as Q. destruct (Rlt_dec 3 (2 * 1)); lra.
Qed.

(* ---------- names ---------- *)

Definition cs_seg (name lab : string) : list child := [run_ops (ops_v name hump) (new_child lab)].
Definition s_seg (name lab : string) : store := [((lab, name), [hump])].
Lemma fam_seg : forall name lab, family (cs_seg name lab).
Proof.
  intros name lab. split; [cbn; constructor; [intros []|constructor]|]. intros c [<-|[]]. exists (ops_v name hump). reflexivity.
Qed.
Lemma holds_seg : forall name lab, holds (cs_seg name lab) (s_seg name lab).
Proof. intros name lab. constructor; [|constructor]. cbn. split; [reflexivity|]. split; [reflexivity|]. intros col [<-|[]]. reflexivity. Qed.
Definition plus1 (a : arr) (_ : bbasis) (_ : option mat) : res arr := Ok (map (map (Rplus 1)) a).
Lemma seg10_hit : hits (Some (inl 1%nat)) "splines_seg10".
Proof.
  destruct (seg_names "splines_" 10 "") as [A B].
  - apply nohas; reflexivity. 
  - exists "1"%char, 1%nat. split; [|split; [split; [lia|reflexivity]|reflexivity]].
    apply (first_seg_at "splines_" "1" "0").
    apply nohas; reflexivity. 
Qed.
(** shifting segment 1 also shifts segment 10 *)
Theorem segment_ten_refuted : exists cs init s s' c x x', family cs /\ holds cs s /\ In c cs /\
  init_transformations free_init cs = Ok init /\ transform_primal_splines plus1 init (Some (inl 1%nat)) cs s = Ok s' /\
  reads s c "splines_seg10" x /\ reads s' c "splines_seg10" x' /\ x <> x'.
Proof.
  set (cs := cs_seg "splines_seg10" "v0"). set (s := s_seg "splines_seg10" "v0").
  destruct (transform_primal_works _ free_init plus1 (Some (inl 1%nat)) cs s (fam_seg _ _) (holds_seg _ _)) as (init & s' & I & E).
  { intros c n b sh [<-|[]] [Hb|[]] [Hv|[]]. inversion Hb; inversion Hv; subst. split.
    - intros [_ U]. destruct seg10_hit as (d & k & F & D & _). apply (U d F k D).
    - exists None. split; [reflexivity|]. intros _ x [Rx|[]]. inversion Rx. subst. eexists. split; [reflexivity|]. split; [reflexivity|].
      intros col [<-|[]]. reflexivity. }
  destruct (transform_primal _ free_init plus1 init (Some (inl 1%nat)) cs s s' (fam_seg _ _) (holds_seg _ _) I E) as (H' & D1 & _).
  destruct (D1 (run_ops (ops_v "splines_seg10" hump) (new_child "v0")) "splines_seg10"%string kb (3, 1)%nat) as (t & x & x' & _ & Rx & Ef & _ & Rx').
  { left; reflexivity. } { left; reflexivity. } { left; reflexivity. } { exact seg10_hit. }
  exists cs, init, s, s', (run_ops (ops_v "splines_seg10" hump) (new_child "v0")), x, x'.
  split; [apply fam_seg|]. split; [apply holds_seg|]. split; [left; reflexivity|]. split; [exact I|]. split; [exact E|]. split; [exact Rx|]. split; [exact Rx'|].
  destruct Rx as [Rx|[]]. inversion Rx. subst x. unfold plus1 in Ef. inversion Ef. unfold hump. cbn. intros Q. inversion Q. lra.
Qed.
(** a vehicle whose label contains "seg" cannot be used with obstacles *)
Lemma segway_unreadable : unreadable "a_segway0_seg0_00".
Proof.
  apply (seg_hit_raise [0%nat]). eexists. reflexivity.
Qed.
Theorem segway_refuted : exists cs s c vehicle b sh, family cs /\ holds cs s /\ In c cs /\
  is_spline c ("a_" ++ vehicle ++ "_seg" ++ Opti_Model.py_str 0 ++ "_00")%string b /\
  is_var c ("a_" ++ vehicle ++ "_seg" ++ Opti_Model.py_str 0 ++ "_00")%string sh /\
  forall (T : Type) (f : arr -> bbasis -> T -> res arr) init, exists e, transform_primal_splines f init None cs s = Raise e.
Proof.
  set (n := "a_segway0_seg0_00"%string).
  exists (cs_seg n "environment0"), (s_seg n "environment0"), (run_ops (ops_v n hump) (new_child "environment0")), "segway0"%string, kb, (3, 1)%nat.
  split; [apply fam_seg|]. split; [apply holds_seg|]. split; [left; reflexivity|]. split; [left; reflexivity|]. split; [left; reflexivity|].
  intros T f init. apply (transform_primal_raises T f init None _ _ (run_ops (ops_v n hump) (new_child "environment0")) n kb (3, 1)%nat);
    [apply fam_seg|left; reflexivity|left; reflexivity|left; reflexivity|exact segway_unreadable].
Qed.
(** the point of a failed solve is used all the same *)
Theorem infeasible_refuted : exists cs s s' x, holds cs s /\
  solve cs 0 1 (fun _ s => Ok s) (fun _ => Ok s) (fun _ => (x, "Infeasible_Problem_Detected"%string)) s = Ok s' /\
  cat s' = x /\ s' <> s.
Proof.
  destruct (solve_stores cs_T 0 1 (fun _ s => Ok s) (fun _ => Ok s_T) (fun _ => ([7; 7; 7; 7], "Infeasible_Problem_Detected"%string)) s_T s_T [7; 7; 7; 7]
    "Infeasible_Problem_Detected" eq_refl eq_refl eq_refl) as (s2 & H2 & C2 & E & _).
  exists cs_T, s_T, s2, [7; 7; 7; 7]. split; [exact holds_T|]. split; [apply E; left; discriminate|]. split; [exact C2|].
  intros ->. cbn in C2. inversion C2. lra.
Qed.
(** the example of the fixed motion time in numbers *)
Lemma slack_refuted_witness : exists init s' x', init_transformations (fixed_init 0) cs_g = Ok init /\
  fixed_init_step init cs_g (inject_Z 1 * 1) (inject_Z 0 * 1) (inject_Z 1 * 1) s_g = Ok ((inject_Z 1 * 1)%Q, s') /\
  reads s' (veh hump) "splines_seg0" [x'] /\ call (mkS kb x') 0 = 1.
Proof.
  destruct (fixed_works 0 cs_g 1%Q 1 0 1 s_g fam_g holds_g) as (init & [q s'] & I & E).
  { intros c n b sh Hc Hb Hv.
    assert (Q : (n = "splines_seg0"%string \/ n = "g0"%string) /\ b = kb /\ sh = (3, 1)%nat).
    { destruct Hc as [<-|[<-|[]]]; destruct Hb as [Hb|[]]; destruct Hv as [Hv|[]]; inversion Hb; inversion Hv; subst; auto. }
    destruct Q as (Hn & -> & ->). split.
    - destruct Hn as [-> | ->]; [apply hit_v|apply read_nohas, nohit_g].
    - exists 1%nat, 2%nat, (1 / 2). split; [reflexivity|]. split; [lra|]. repeat split; lia. }
  assert (L : (0 / 1 < 1 / 1)%Z) by reflexivity.
  assert (Q1 : (0 < 1)%Q) by (unfold Qlt; cbn; lia).
  destruct (fixed_shift 0 init cs_g 1%Q 1 0 1 s_g q s' Q1 ltac:(lia) ltac:(lia) ltac:(lia) L fam_g holds_g I E) as (-> & H' & D & V).
  assert (Rv : reads s_g (veh hump) "splines_seg0" [hump]) by (left; reflexivity).
  destruct (D (veh hump) "splines_seg0"%string 1%nat 2%nat (1 / 2) (3, 1)%nat [hump]) as (x' & Rx' & Sx' & Cx'); auto; try lra; try lia;
    [left; reflexivity|apply spl_v|apply var_v|apply hit_v|].
  destruct Sx' as [Lx Sx]. destruct x' as [|y [|? ?]]; cbn in Lx; try lia.
  destruct (Cx' 0%nat (Nat.lt_0_succ 0)) as [A _]. cbn [nth coeffs] in A.
  exists init, s', y. split; [exact I|]. split; [exact E|]. split; [exact Rx'|].
  specialize (A 0 ltac:(cbn; lra)). rewrite Rmult_0_l in A. apply close_0 in A. fold kb in A. rewrite A.
  unfold call. cbn [sbasis coeffs]. replace (0 + 1 / 2) with (1 / 2) by ring. rewrite kb_mid. cbn. lra.
Qed.

(* ---------- several frames ---------- *)

Definition frm : child := run_ops [Plain KVar "T0" 1 1 (Some (VNum 2)); Plain KVar "T1" 1 1 (Some (VNum 3))] (new_child "multi0").
Definition cs_F : list child := [veh line; frm].
Definition s_F : store := [(("holonomic0"%string, "splines_seg0"%string), [line]); (("multi0"%string, "T0"%string), [[2]]); (("multi0"%string, "T1"%string), [[3]])].
Lemma fam_F : family cs_F.
Proof.
  split.
  - cbn. constructor; [intros [Q|[]]; discriminate|]. constructor; [intros []|constructor].
  - intros c [<-|[<-|[]]]; [exists (ops_v "splines_seg0" line)|eexists]; reflexivity.
Qed.
Lemma holds_F : holds cs_F s_F.
Proof.
  repeat (apply Forall2_cons; [cbn; split; [reflexivity|split; [reflexivity|intros col [<-|[]]; reflexivity]]|]). constructor.
Qed.
Lemma times_F : forall i, (i < 2)%nat -> time_of s_F frm i (nth i [2; 3] 0).
Proof.
  intros i Hi. destruct i as [|[|i]]; [| |lia]; (split; [intros b []|exists [], []]).
  - right. left. reflexivity.
  - right. right. left. reflexivity.
Qed.
Lemma frames_run : exists init s', init_transformations free_init cs_F = Ok init /\
  frames_init_step 0 init cs_F frm 2 0 1 1 s_F = Ok s'.
Proof.
  destruct (transform_primal_works _ free_init (free_transform 0 (1 / (0 + 2 + 3 - 1))) (Some (inr [0%nat])) cs_F s_F fam_F holds_F) as (init & s1 & I & E).
  { intros c n b sh Hc Hb Hv.
    assert (Q : n = "splines_seg0"%string /\ c = veh line /\ b = kb /\ sh = (3, 1)%nat).
    { destruct Hc as [<-|[<-|[]]]; [|destruct Hb]. destruct Hb as [Hb|[]]; destruct Hv as [Hv|[]]; inversion Hb; inversion Hv; subst; auto. }
    destruct Q as (-> & -> & -> & ->). split; [apply hit_v|]. exists None. split; [reflexivity|]. intros _ x Rx.
    assert (x = [line]). { destruct Rx as [Rx|[Rx|[Rx|[]]]]; inversion Rx; reflexivity. } subst x.
    destruct (shift_kb 0 (1 / (0 + 2 + 3 - 1)) line ltac:(lra)) as [c2 Ec]. cbn [free_transform]. unfold on_columns. cbn [map]. rewrite Ec. cbn [oall].
    exists [c2]. split; [reflexivity|]. split; [reflexivity|]. intros col [<-|[]].
    unfold shift_spline in Ec. destruct (transform_basis _ _ _); [|discriminate]. inversion Ec. rewrite cols_dot_length. reflexivity. }
  destruct (transform_primal _ _ _ init (Some (inr [0%nat])) cs_F s_F s1 fam_F holds_F I E) as (H1 & _ & V).
  assert (V0 : is_var frm "T0" (1, 1)%nat) by (left; reflexivity).
  assert (IF : In frm cs_F) by (right; left; reflexivity).
  assert (NS : forall b, ~ is_spline frm "T0" b) by (intros b []).
  assert (R0 : reads s1 frm "T0" [[2]]).
  { apply V; [exact IF|intros b sh []|]. right. left. reflexivity. }
  destruct (proj2 (set_one_works cs_F frm "T0" (VNum (2 - 1)) s1 fam_F IF)) as [s' Es].
  { exists (1, 1)%nat, [[2 - 1]]. split; [exact V0|]. split; [split; [reflexivity|]; intros col [<-|[]]; reflexivity|].
    intros col z [<-|[]] [<-|[]]. reflexivity. }
  exists init, s'. split; [exact I|]. unfold frames_init_step. rewrite (proj2 (Rltb_true 0 (1 - 0))) by lra.
  assert (ET : sum_times frm 0 2 s_F = Ok (0 + 2 + 3)) by reflexivity.
  rewrite ET. cbn [bind]. unfold Multi_Model.step_times. rewrite (proj2 (Rltb_false (0 + 2 + 3) (2 * 1))) by lra. cbn [fst snd]. rewrite E. cbn [bind].
  rewrite (proj2 (get_number_spec cs_F s1 frm "T0" 2 fam_F H1 IF NS)) by (exists [], []; exact R0).
  cbn [bind]. exact Es.
Qed.
