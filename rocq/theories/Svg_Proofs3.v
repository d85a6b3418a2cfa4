(** Where the program and the figure part (Svg_Model.v). *)
From Coq Require Import Reals List Bool Lra Psatz Lia.
From Verif Require Import Svg_Model Svg_Spec Svg_Proofs Svg_Proofs2.
Import ListNotations.
Local Open Scope R_scope.

(* three points of the circle about the origin with radius 5 *)
Lemma corner_refuted : exists o p1 p2 p3 c, equidistant o p1 p2 p3 /\ ~ collinear p1 p2 p3 /\
  centre p1 p2 p3 = Ok c /\ c <> o /\ ~ equidistant c p1 p2 p3.
Proof.
  exists (0, 0), (3, -4), (3, 4), (-3, 4), (3, 4). repeat split.
  - unfold d2, Rsqr; cbn; ring.
  - unfold d2, Rsqr; cbn; ring.
  - unfold collinear, cross; cbn. lra.
  - apply centre_corner. left. split; reflexivity.
  - intro E. injection E as E. lra.
  - intros [E _]. unfold d2, Rsqr in E; cbn in E. lra.
Qed.

Lemma horizontal_refuted : exists o p1 p2 p3 c, equidistant o p1 p2 p3 /\ ~ collinear p1 p2 p3 /\
  centre p1 p2 p3 = Ok c /\ ~ equidistant c p1 p2 p3.
Proof.
  destruct (centre_horizontal1 (-3, 4) (3, 4) (4, -3)) as (c & E & _ & _ & Q); cbn; [reflexivity|lra|split; cbn; lra|].
  exists (0, 0), (-3, 4), (3, 4), (4, -3), c. split; [split; unfold d2, Rsqr; cbn; ring|]. split; [unfold collinear, cross; cbn; lra|].
  split; [exact E|]. intro H. apply Q in H. unfold dot in H; cbn in H. lra.
Qed.

Lemma vertical_refuted : exists o p1 p2 p3, equidistant o p1 p2 p3 /\ ~ collinear p1 p2 p3 /\ centre p1 p2 p3 = NameError.
Proof.
  exists (0, 0), (4, -3), (4, 3), (3, 4). split; [split; unfold d2, Rsqr; cbn; ring|]. split; [unfold collinear, cross; cbn; lra|].
  apply centre_vertical. left. split; [reflexivity|split; cbn; lra].
Qed.

(* ---- number of commands --------------------------------------------------- *)
Definition drawn (c : child) : bool := match c with Other => false | _ => true end.

Lemma bind_ok : forall {A B} (x : res A) (f : A -> res B) b, bind x f = Ok b -> exists a, x = Ok a /\ f a = Ok b.
Proof. intros A B [a| | | | | |] f b E; try discriminate. exists a. split; [reflexivity|exact E]. Qed.

Lemma do_path_out : forall s m cs s', do_path s m cs = Ok s' -> exists k, out s' = k :: out s /\
  (end_curve s' = Some (target k)).
Proof.
  intros s m cs s' E. unfold do_path in E. cbv zeta in E. destruct cs as [|f r].
  - destruct (end_curve s) as [q|]; [|discriminate]. injection E as <-. eexists; split; reflexivity.
  - destruct (circle_points (flip m) (f :: r)) as [|p2 [|p3 l]]; try discriminate.
    apply bind_ok in E. destruct E as (c & _ & E). destruct (out s) as [|prev o] eqn:Os; [discriminate|].
    injection E as <-. destruct (orient _ _ _ _ _) as [[a b] k] eqn:O. exists (arc_cmd c (a, b, k)). split; [reflexivity|]. cbn [end_curve fst snd]. now rewrite arc_target.
Qed.

Lemma do_children_length : forall tr l s s', out s <> [] -> do_children tr s l = Ok s' ->
  length (out s') = (length (filter drawn l) + length (out s))%nat.
Proof.
  intros tr l. induction l as [|c l IH]; intros s s' N E.
  { injection E as <-. reflexivity. }
  cbn [do_children] in E. apply bind_ok in E. destruct E as (s1 & E1 & E).
  destruct c as [a b| |m cs| |]; cbn [do_child] in E1; try discriminate.
  - injection E1 as <-. rewrite (IH (do_line tr s a b) s'); [|cbn; discriminate|exact E].
    unfold do_line; cbn [out filter drawn length]. destruct (out s); [congruence|]. cbn [length]. lia.
  - destruct (do_path_out _ _ _ _ E1) as (k & O & _). rewrite (IH s1 s'); [|rewrite O; discriminate|exact E].
    rewrite O. cbn [filter drawn length]. lia.
  - injection E1 as <-. rewrite (IH s s' N E). reflexivity.
Qed.

(* one command per drawn element and one to go to the first point *)
Lemma gcode_length : forall tr l prog, gcode tr l = Ok prog -> prog <> [] -> length prog = S (length (filter drawn l)).
Proof.
  intros tr l prog E N. unfold gcode in E. apply bind_ok in E. destruct E as (s & E & P). injection P as <-.
  rewrite rev_length.
  assert (N' : out s <> []) by (intro Z; rewrite Z in N; apply N; reflexivity). clear N.
  assert (G : forall l s0 s, out s0 = [] -> end_curve s0 = None -> do_children tr s0 l = Ok s -> out s <> [] -> length (out s) = S (length (filter drawn l))); [|exact (G l st0 s eq_refl eq_refl E N')].
  clear. induction l as [|c l IH]; intros s0 s O C E N.
  { injection E as <-. contradiction. }
  cbn [do_children] in E. apply bind_ok in E. destruct E as (s1 & E1 & E).
  destruct c as [a b| |m cs| |]; cbn [do_child] in E1; try discriminate.
  - injection E1 as <-. rewrite (do_children_length tr l (do_line tr s0 a b) s); [|cbn; discriminate|exact E].
    unfold do_line; cbn [out filter drawn length]. rewrite O. cbn [length]. lia.
  - exfalso. unfold do_path in E1. cbv zeta in E1. destruct cs as [|f r]; [rewrite C in E1; discriminate|].
    destruct (circle_points (flip m) (f :: r)) as [|p2 [|p3 t]]; try discriminate.
    apply bind_ok in E1. destruct E1 as (z & _ & E1). rewrite O in E1. discriminate.
  - injection E1 as <-. cbn [filter drawn]. apply (IH s0 s O C E N).
Qed.

(* ---- lines given from their second end ------------------------------------ *)
Lemma reversed_line_refuted : exists l prog, gcode (0, 0) l = Ok prog /\
  (forall pos, run pos prog = [Seg (0, 0) (1, 0); Seg (1, 0) (1, 0)]) /\
  l = [Line (0, 0) (1, 0); Line (2, 0) (1, 0)] /\ forall pos, ~ shows l (run pos prog).
Proof.
  exists [Line (0, 0) (1, 0); Line (2, 0) (1, 0)]. eexists. split; [reflexivity|].
  assert (R : forall pos, run pos (rev (out (do_line (0, 0) (do_line (0, 0) st0 (0, 0) (1, 0)) (2, 0) (1, 0)))) = [Seg (0, 0) (1, 0); Seg (1, 0) (1, 0)]).
  { intro pos. unfold do_line, flip, padd; cbn. rewrite !Rplus_0_r, Ropp_0. reflexivity. }
  split; [exact R|]. split; [reflexivity|]. intros pos H. cbn [out rev] in *. 
  pose proof (R pos) as R'. cbn [do_line out rev] in R'. 
  match type of H with shows _ ?r => replace r with [Seg (0, 0) (1, 0); Seg (1, 0) (1, 0)] in H by (symmetry; exact R') end.
  inversion H as [|? ? ? ? H1| |]; subst. inversion H1; subst. lra.
Qed.

(* ---- the translation of the figure is only applied to the lines ----------- *)
Lemma path_not_moved : forall tr a b m cs prog, Forall (fun c => snd c = []) cs -> cs <> [] -> gcode tr [Line a b; Path m cs] = Ok prog ->
  exists k, prog = [G00 (flip (padd a tr)); G01 (flip (padd b tr)); k] /\ (target k = first_pt m \/ target k = last_pt m cs).
Proof.
  intros tr a b m cs prog Si N E. unfold gcode in E. cbn [do_children do_child bind] in E. apply bind_ok in E.
  destruct E as (s & E & P). injection P as <-. apply bind_ok in E. destruct E as (s1 & E1 & E). injection E as <-.
  unfold do_path in E1. cbv zeta in E1. destruct cs as [|f r]; [congruence|].
  destruct (circle_points (flip m) (f :: r)) as [|p2 [|p3 t]]; try discriminate.
  apply bind_ok in E1. destruct E1 as (z & _ & E1). rewrite (path_end_last (f :: r) m Si) in E1. cbn [out do_line st0] in E1. injection E1 as <-. cbn [out rev app].
  eexists. split; [reflexivity|].
  unfold orient. destruct (rltb _ _); rewrite arc_target; [right|left]; reflexivity.
Qed.

(* ---- paths without curves and paths at the beginning ----------------------- *)
Lemma move_only : forall s m, do_path s m [] = match end_curve s with None => NameError | Some q => Ok {| out := G01 q :: out s; end_curve := Some q |} end.
Proof. reflexivity. Qed.

(* a path that is only a move repeats the end of the last arc, wherever it moves to *)
Lemma move_only_stale : forall s m cs s1 m', cs <> [] -> do_path s m cs = Ok s1 ->
  exists k, out s1 = k :: out s /\ do_path s1 m' [] = Ok {| out := G01 (target k) :: k :: out s; end_curve := Some (target k) |}.
Proof.
  intros s m cs s1 m' N E. destruct (do_path_out _ _ _ _ E) as (k & O & C). exists k. split; [exact O|].
  rewrite move_only, C, O. reflexivity.
Qed.

Lemma path_first_refuted : forall tr m cs l, circular m cs -> gcode tr (Path m cs :: l) = IndexError.
Proof.
  intros tr m cs l (Si & q1 & q2 & qs & c & r & P & On & O1 & O2 & N).
  destruct cs as [|first rest]; [discriminate P|]. unfold gcode. cbn [do_children do_child]. unfold do_path. cbv zeta.
  rewrite (circle_points_path (first :: rest) m Si). rewrite P. cbn [map].
  assert (A0 : a0 q1 = flip m).
  { rewrite path_single in P by exact Si. cbn in P. injection P as <- _. reflexivity. }
  rewrite <- A0. rewrite (centre_recovers c r); [reflexivity|assumption..| | |].
  - apply On. rewrite P. now left.
  - apply On. rewrite P. now left.
  - apply (On q2). rewrite P. right; now left.
Qed.

(* several cubics after one letter c: all but the last are skipped *)
Lemma polycubic_refuted : exists m cs, path_end (first_pt m) cs <> last_pt m cs.
Proof.
  exists (0, 0), [({| c1 := (0,0); c2 := (0,0); e := (1,0) |}, [{| c1 := (0,0); c2 := (0,0); e := (1,0) |}])].
  unfold path_end, last_pt, path_of, first_pt. cbn. unfold curve_move, padd, flip; cbn. intro E. injection E as E _. lra.
Qed.

(* a closed path of two cubics is not recognised as a circle *)
Lemma two_halves_refuted : forall m f g, oblique (flip m) (padd (curve_move f) (flip m)) ->
  padd (curve_move g) (padd (curve_move f) (flip m)) = flip m -> forall s, do_path s m [f; g] = RuntimeError.
Proof.
  intros m f g O Cl s. unfold do_path. cbv zeta. cbn [circle_points]. rewrite Cl.
  rewrite centre_collinear; [reflexivity|exact O| |].
  - destruct O as [O1 O2]. split; apply not_eq_sym; assumption.
  - unfold collinear, cross, psub; cbn. ring.
Qed.
