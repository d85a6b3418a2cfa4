(** The program follows the figure (Svg_Model.v, gcode). *)
From Coq Require Import Reals List Bool Lra Psatz Lia.
From Verif Require Import Svg_Model Svg_Spec Svg_Proofs.
Import ListNotations.
Local Open Scope R_scope.

Lemma pt_eq : forall a b : pt, fst a = fst b -> snd a = snd b -> a = b.
Proof. intros [a b] [c d] E F. cbn in *. congruence. Qed.

(* ---- velocity of a cubic at its start ----------------------------------- *)
Lemma bern_lim : forall x0 x1 x2 x3, derivable_pt_lim (bern x0 x1 x2 x3) 0 (3 * (x1 - x0)).
Proof.
  intros x0 x1 x2 x3. 
  replace (3 * (x1 - x0)) with
    (((0 - 1) * (1 - 0) * (1 - 0) + (1 - 0) * (0 - 1) * (1 - 0) + (1 - 0) * (1 - 0) * (0 - 1)) * x0 + 3 * x1) by ring.
  intros eps H.
  set (A := x0 * 3 - 6 * x1 + 3 * x2). set (B := - x0 + 3 * x1 - 3 * x2 + x3).
  assert (Q : forall h, h <> 0 -> (bern x0 x1 x2 x3 (0 + h) - bern x0 x1 x2 x3 0) / h -
     (((0 - 1) * (1 - 0) * (1 - 0) + (1 - 0) * (0 - 1) * (1 - 0) + (1 - 0) * (1 - 0) * (0 - 1)) * x0 + 3 * x1) = h * (A + B * h)).
  { intros h Hh. unfold bern, A, B. field. exact Hh. }
  assert (P : 0 < Rmin 1 (eps / (Rabs A + Rabs B + 1))).
  { apply Rmin_glb_lt; [lra|]. apply Rdiv_lt_0_compat; [exact H|]. pose proof (Rabs_pos A). pose proof (Rabs_pos B). lra. }
  exists (mkposreal _ P). intros h Hh Hd. cbn in Hd. rewrite Q by exact Hh.
  assert (H1 : Rabs h < 1) by (eapply Rlt_le_trans; [exact Hd|apply Rmin_l]).
  assert (H2 : Rabs h < eps / (Rabs A + Rabs B + 1)) by (eapply Rlt_le_trans; [exact Hd|apply Rmin_r]).
  pose proof (Rabs_pos A) as PA. pose proof (Rabs_pos B) as PB. pose proof (Rabs_pos h) as Ph.
  rewrite Rabs_mult.
  assert (T : Rabs (A + B * h) <= Rabs A + Rabs B).
  { eapply Rle_trans; [apply Rabs_triang|]. rewrite Rabs_mult. assert (Rabs B * Rabs h <= Rabs B * 1) by (apply Rmult_le_compat_l; lra). lra. }
  apply Rle_lt_trans with (Rabs h * (Rabs A + Rabs B + 1)). { apply Rmult_le_compat_l; lra. }
  apply Rmult_lt_reg_r with (/ (Rabs A + Rabs B + 1)). { apply Rinv_0_lt_compat. lra. }
  rewrite Rmult_assoc, Rinv_r by lra. rewrite Rmult_1_r. exact H2.
Qed.

Lemma leaves_start : forall q, leaves q (3 * (fst (a1 q) - fst (a0 q)), 3 * (snd (a1 q) - snd (a0 q))).
Proof. intro q. split; apply bern_lim. Qed.

(* ---- points of a path ----------------------------------------------------- *)
Definition single (c : curve) : Prop := snd c = [].

Lemma path_single : forall cs m, Forall single cs -> path_of m cs = map up (cubics m (map fst cs)).
Proof.
  intros cs m H. unfold path_of. do 2 f_equal. induction H as [|[b l] cs E H IH]; [reflexivity|]. cbn.
  unfold single in E; cbn in E. subst l. cbn. now rewrite IH.
Qed.

Lemma flip_padd : forall a b, flip (padd a b) = padd (flip b) (flip a).
Proof. intros [a b] [c d]. unfold flip, padd; cbn. f_equal; ring. Qed.

Lemma circle_points_path : forall cs m, Forall single cs -> circle_points (flip m) cs = map a3 (path_of m cs).
Proof.
  intros cs m H. rewrite path_single by exact H. revert m. induction H as [|[b l] cs E H IH]; intro m; [reflexivity|].
  unfold single in E; cbn in E. subst l. cbn [circle_points map cubics fst].
  unfold curve_move; cbn [fst snd last]. rewrite <- flip_padd. f_equal. apply IH.
Qed.

Lemma path_end_points : forall cs p, path_end p cs = last (circle_points p cs) p.
Proof.
  induction cs as [|c cs IH]; intro p; [reflexivity|]. unfold path_end in *. cbn [fold_left circle_points].
  replace (padd p (curve_move c)) with (padd (curve_move c) p) by (unfold padd; cbn; f_equal; ring).
  rewrite IH. destruct cs as [|d cs]; [reflexivity|]. cbn [circle_points].
  generalize (circle_points (padd (curve_move d) (padd (curve_move c) p)) cs) as l.
  generalize (padd (curve_move d) (padd (curve_move c) p)) as z. generalize (padd (curve_move c) p) as y.
  intros y z l. change (last (z :: l) y = last (z :: l) p). clear. revert z. induction l as [|a l IH]; intro z; [reflexivity|].
  change (last (a :: l) y = last (a :: l) p). apply IH.
Qed.

Lemma last_map : forall {A B} (f : A -> B) l d, last (map f l) (f d) = f (last l d).
Proof. intros A B f l d. induction l as [|a l IH]; [reflexivity|]. cbn. destruct l; [reflexivity|exact IH]. Qed.

Lemma last_dflt : forall {A} (l : list A) x d1 d2, last (x :: l) d1 = last (x :: l) d2.
Proof. induction l as [|a l IH]; intros x d e'; [reflexivity|]. change (last (a :: l) d = last (a :: l) e'). apply IH. Qed.
Lemma last_cons : forall {A} (l : list A) x d, last (x :: l) d = last l x.
Proof. intros A l x d. destruct l as [|a l]; [reflexivity|]. change (last (a :: l) d = last (a :: l) x). apply last_dflt. Qed.

Lemma path_end_last : forall cs m, Forall single cs -> path_end (flip m) cs = last_pt m cs.
Proof.
  intros cs m H. rewrite path_end_points, circle_points_path by exact H. unfold last_pt.
  exact (last_map a3 (path_of m cs) {| a0 := flip m; a1 := flip m; a2 := flip m; a3 := flip m |}).
Qed.

(* the joints of a path hang together *)
Lemma cubics_head : forall l p q qs, cubics p l = q :: qs -> a0 q = p.
Proof. intros [|b l] p q qs E; [discriminate|]. injection E as <- _. reflexivity. Qed.

(* ---- the last cubic of a path ------------------------------------------- *)
Lemma path_last : forall first rest m, Forall single (first :: rest) ->
  exists p, last (path_of m (first :: rest)) {| a0 := flip m; a1 := flip m; a2 := flip m; a3 := flip m |} =
   up {| a0 := p; a1 := padd p (c1 (fst (last rest first))); a2 := padd p (c2 (fst (last rest first))); a3 := padd p (e (fst (last rest first))) |}.
Proof.
  intros first rest m H. rewrite path_single by exact H. cbn [map cubics]. clear H.
  revert first m. induction rest as [|c rest IH]; intros first m.
  - cbn. exists m. reflexivity.
  - destruct (IH c (padd m (e (fst first)))) as (p & E). exists p. cbn [map cubics] in E |- *.
    rewrite (last_cons rest c first). rewrite last_cons in E. rewrite last_cons.
    etransitivity; [|exact E]. rewrite last_cons. reflexivity.
Qed.

Lemma dist_self : forall p, dist p p = 0.
Proof. intros [a b]. unfold dist; cbn. replace ((a - a) * (a - a) + (b - b) * (b - b)) with 0 by ring. apply sqrt_0. Qed.
Lemma dist_pos : forall p q, p <> q -> 0 < dist p q.
Proof.
  intros [a b] [c d] N. unfold dist; cbn. apply sqrt_lt_R0.
  pose proof (Rle_0_sqr (a - c)) as Q1. pose proof (Rle_0_sqr (b - d)) as Q2. unfold Rsqr in *.
  destruct (Req_dec a c) as [E|E].
  - assert (b <> d) by (intro; apply N; congruence). assert (0 < (b - d) * (b - d)) by (apply Rlt_0_sqr; lra). lra.
  - assert (0 < (a - c) * (a - c)) by (apply Rlt_0_sqr; lra). lra.
Qed.
Lemma dist_nonneg : forall p q, 0 <= dist p q.
Proof. intros. apply sqrt_pos. Qed.

(* sense of rotation written by the converter *)
Lemma arc_run : forall c s f k l, run s (arc_cmd c (s, f, k) :: l) =
  Arc (rltb (cross (psub s c) (psub k s)) 0) c s f :: run f l.
Proof.
  intros c s f k l. unfold arc_cmd. 
  replace (fst (psub s c) * snd (psub k s) - fst (psub k s) * snd (psub s c)) with (cross (psub s c) (psub k s)) by (unfold cross; ring).
  assert (E : padd s (psub c s) = c) by (apply pt_eq; cbn; ring).
  destruct (rltb (cross (psub s c) (psub k s)) 0); cbn [run]; rewrite E; reflexivity.
Qed.
Lemma arc_target : forall c s f k, target (arc_cmd c (s, f, k)) = f.
Proof. intros. unfold arc_cmd. destruct (rltb _ _); reflexivity. Qed.

Lemma path_nonempty : forall m cs, cs <> [] -> path_of m cs <> [].
Proof. intros m [|c cs] H E; [congruence|]. discriminate. Qed.

(* what one path adds *)
Lemma path_step : forall m cs s prev o pos, circular m cs -> out s = prev :: o -> target prev = pos ->
  exists s' k c r sg a b, do_path s m cs = Ok s' /\ out s' = k :: out s /\ target k = b /\
    on_circle c r (path_of m cs) /\ follows (path_of m cs) (Arc sg c a b) /\
    (forall l, run a (k :: l) = Arc sg c a b :: run b l) /\
    ((dist (first_pt m) pos < dist (last_pt m cs) pos /\ a = first_pt m /\ b = last_pt m cs) \/
     (~ dist (first_pt m) pos < dist (last_pt m cs) pos /\ a = last_pt m cs /\ b = first_pt m)).
Proof.
  intros m cs s prev o pos (Si & q1 & q2 & qs & c & r & P & On & O1 & O2 & N) Os T.
  destruct cs as [|first rest]; [discriminate P|]. unfold do_path. cbv zeta.
  rewrite (circle_points_path (first :: rest) m Si). rewrite P. cbn [map].
  assert (A0 : a0 q1 = flip m).
  { rewrite path_single in P by exact Si. cbn in P. injection P as <- _. reflexivity. }
  assert (A1 : a1 q1 = flip (padd m (c1 (fst first)))).
  { rewrite path_single in P by exact Si. cbn in P. injection P as <- _. reflexivity. }
  assert (L12 : a3 q1 = a0 q2).
  { rewrite path_single in P by exact Si. destruct rest as [|c2' rest]; [discriminate P|]. cbn in P. injection P as <- <- _. reflexivity. }
  assert (C : centre (a0 q1) (a3 q1) (a3 q2) = Ok c).
  { apply centre_recovers with r; try assumption.
    - apply On. rewrite P. now left.
    - apply On. rewrite P. now left.
    - apply (On q2). rewrite P. right; now left. }
  rewrite A0 in C. rewrite C. cbn [bind]. rewrite Os, T. rewrite (path_end_last (first :: rest) m Si).
  destruct (path_last first rest m Si) as (p & PL).
  assert (LP : last_pt m (first :: rest) = flip (padd p (e (fst (last rest first))))).
  { unfold last_pt. rewrite PL. reflexivity. }
  assert (LQ : last (q2 :: qs) q1 = up {| a0 := p; a1 := padd p (c1 (fst (last rest first))); a2 := padd p (c2 (fst (last rest first))); a3 := padd p (e (fst (last rest first))) |}).
  { rewrite <- PL, P. now rewrite (last_cons (q2 :: qs) q1). }
  unfold orient. destruct (rltb_spec (dist (flip m) pos) (dist (last_pt m (first :: rest)) pos)) as [D|D]; cbn [fst snd].
  - set (k := (fst (flip m) + fst (c1 (fst first)), snd (flip m) - snd (c1 (fst first)))).
    eexists _, (arc_cmd c (flip m, last_pt m (first :: rest), k)), c, r, (rltb (cross (psub (flip m) c) (psub k (flip m))) 0),
      (flip m), (last_pt m (first :: rest)).
    split; [reflexivity|]. split; [cbn; reflexivity|]. split; [apply arc_target|]. split; [rewrite <- P; exact On|].
    split; [|split; [intro l; apply arc_run|left; split; [exact D|split; reflexivity]]].
    rewrite LP. change (flip (padd p (e (fst (last rest first))))) with
      (a3 (up {| a0 := p; a1 := padd p (c1 (fst (last rest first))); a2 := padd p (c2 (fst (last rest first))); a3 := padd p (e (fst (last rest first))) |})).
    rewrite <- LQ. rewrite <- A0.
    eapply forwards; [apply leaves_start|]. rewrite A1, A0. unfold turns_clockwise.
    assert (E : cross (psub (flip m) c) (3 * (fst (flip (padd m (c1 (fst first)))) - fst (flip m)), 3 * (snd (flip (padd m (c1 (fst first)))) - snd (flip m))) =
                3 * cross (psub (flip m) c) (psub k (flip m))).
    { unfold k, cross, psub, flip, padd; cbn. ring. }
    rewrite E. destruct (rltb_spec (cross (psub (flip m) c) (psub k (flip m))) 0) as [G|G]; split; intro Z; try reflexivity; try discriminate; lra.
  - set (k := (fst (last_pt m (first :: rest)) - fst (e (fst (last rest first))) + fst (c2 (fst (last rest first))),
              snd (last_pt m (first :: rest)) + snd (e (fst (last rest first))) - snd (c2 (fst (last rest first))))).
    eexists _, (arc_cmd c (last_pt m (first :: rest), flip m, k)), c, r, (rltb (cross (psub (last_pt m (first :: rest)) c) (psub k (last_pt m (first :: rest)))) 0),
      (last_pt m (first :: rest)), (flip m).
    split; [reflexivity|]. split; [cbn; reflexivity|]. split; [apply arc_target|]. split; [rewrite <- P; exact On|].
    split; [|split; [intro l; apply arc_run|right; split; [exact D|split; reflexivity]]].
    set (B := back (last (q2 :: qs) q1)).
    assert (E : cross (psub (last_pt m (first :: rest)) c) (3 * (fst (a1 B) - fst (a0 B)), 3 * (snd (a1 B) - snd (a0 B))) =
                3 * cross (psub (last_pt m (first :: rest)) c) (psub k (last_pt m (first :: rest)))).
    { unfold B, k. rewrite LQ, LP. unfold cross, psub, flip, padd, back, up; cbn. ring. }
    assert (LB : last_pt m (first :: rest) = a3 (last (q2 :: qs) q1)) by (rewrite LQ, LP; reflexivity).
    rewrite LB, <- A0.
    eapply backwards; [apply leaves_start|]. fold B. unfold turns_clockwise. rewrite <- LB. rewrite E.
    destruct (rltb_spec (cross (psub (last_pt m (first :: rest)) c) (psub k (last_pt m (first :: rest)))) 0) as [G|G]; split; intro Z; try reflexivity; try discriminate; lra.
Qed.

Lemma padd_0 : forall a, padd a (0, 0) = a.
Proof. intros [a b]. unfold padd; cbn. f_equal; ring. Qed.

Lemma children_run : forall l s prev o pos, connected pos l -> out s = prev :: o -> target prev = pos ->
  exists s' new, do_children (0, 0) s l = Ok s' /\ out s' = rev new ++ out s /\ shows l (run pos new).
Proof.
  induction l as [|c l IH]; intros s prev o pos C Os T.
  { exists s, []. split; [reflexivity|]. split; [reflexivity|constructor]. }
  destruct c as [a b| |m cs| |]; cbn [connected] in C; try contradiction.
  - destruct C as [E C]. cbn [do_children do_child bind]. unfold do_line. cbv zeta. rewrite !padd_0, Os.
    destruct (IH {| out := G01 (flip b) :: prev :: o; end_curve := end_curve s |} (G01 (flip b)) (prev :: o) (flip b) C eq_refl eq_refl) as (s' & new & D & Os' & Sh).
    exists s', (G01 (flip b) :: new). split; [exact D|]. split; [rewrite Os'; cbn; now rewrite <- app_assoc|].
    cbn [run]. rewrite E. constructor. exact Sh.
  - destruct C as [Ci C]. destruct (path_step m cs s prev o pos Ci Os T) as (s1 & k & c & r & sg & a & b & D & O1 & Tk & On & Fo & Ru & Ch).
    cbn [do_children do_child]. rewrite D. cbn [bind].
    assert (A : a = pos /\ connected b l).
    { destruct Ch as [(Dl & -> & ->)|(Dl & -> & ->)].
      - destruct C as [(E & _ & C)|(E & C)].
        + split; [now rewrite E|exact C].
        + exfalso. rewrite E in Dl. rewrite dist_self in Dl. pose proof (dist_nonneg (first_pt m) (last_pt m cs)). lra.
      - destruct C as [(E & N & C)|(E & C)].
        + exfalso. apply Dl. rewrite E, dist_self. rewrite E in N. apply dist_pos. congruence.
        + split; [now rewrite E|exact C]. }
    destruct A as [-> C'].
    destruct (IH s1 k (out s) b C' O1 Tk) as (s' & new & D' & Os' & Sh).
    exists s', (k :: new). split; [exact D'|]. split; [rewrite Os', O1; cbn; now rewrite <- app_assoc|].
    rewrite Ru. econstructor; eassumption.
  - cbn [do_children do_child bind]. destruct (IH s prev o pos C Os T) as (s' & new & D & Os' & Sh).
    exists s', new. split; [exact D|]. split; [exact Os'|]. constructor. exact Sh.
Qed.

(* a figure without gaps that starts with a line is converted to a program
   that cuts it *)
Lemma gcode_shows : forall a b l, connected (flip b) l ->
  exists prog, gcode (0, 0) (Line a b :: l) = Ok prog /\ forall pos, shows (Line a b :: l) (run pos prog).
Proof.
  intros a b l C. unfold gcode. cbn [do_children do_child bind]. unfold do_line. cbn [out st0]. cbv zeta. rewrite !padd_0.
  destruct (children_run l {| out := [G01 (flip b); G00 (flip a)]; end_curve := end_curve st0 |} (G01 (flip b)) [G00 (flip a)] (flip b) C eq_refl eq_refl)
    as (s' & new & D & Os & Sh).
  rewrite D. cbn [bind]. exists (rev (out s')). split; [reflexivity|]. intro pos. rewrite Os.
  rewrite rev_app_distr, rev_involutive. cbn [rev out app]. cbn [run]. constructor. exact Sh.
Qed.
