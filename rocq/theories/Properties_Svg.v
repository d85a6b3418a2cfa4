(** Circles and programs from an svg figure (C57, C92). *)
From Coq Require Import Reals List Lra.
From Verif Require Import Svg_Model Svg_Spec Svg_Proofs Svg_Proofs2 Svg_Proofs3.
Import ListNotations.
Local Open Scope R_scope.

(* a figure: a line from the origin to (5, 0) and an arc of the circle with
   radius 5 over (4, 3) to (3, 4), with y down and relative ends as in a file *)
Definition arc1 : curve := ({| c1 := (0, -1); c2 := (0, -2); e := (-1, -3) |}, []).
Definition arc2 : curve := ({| c1 := (0, 0); c2 := (-1, -1); e := (-1, -1) |}, []).
Lemma arcs_circular : circular (5, 0) [arc1; arc2].
Proof.
  split; [repeat constructor|].
  eexists _, _, [], (0, 0), 25. split; [cbn; reflexivity|].
  split. { intros q [<-|[<-|[]]]; split; unfold d2, Rsqr; cbn; ring. }
  split; [split; cbn; lra|]. split; [split; cbn; lra|]. cbn. intro Z. injection Z as Z. lra.
Qed.
Lemma figure_connected : connected (flip (5, 0)) [Path (5, 0) [arc1; arc2]; Line (3, -4) (0, 0)].
Proof.
  cbn [connected]. split; [exact arcs_circular|]. left. split; [reflexivity|].
  assert (L : last_pt (5, 0) [arc1; arc2] = (3, 4)).
  { unfold last_pt, path_of. cbn. unfold flip, padd; cbn. f_equal; ring. }
  rewrite L. split. { intro Z. unfold flip in Z; cbn in Z. injection Z as Z. lra. }
  split; [unfold flip; cbn; f_equal; ring|exact I].
Qed.

(* two chords that are neither horizontal nor vertical and three points that are not in line: the centre is equidistant *)
Theorem C57_general : forall p1 p2 p3, oblique p1 p2 -> oblique p2 p3 -> ~ collinear p1 p2 p3 ->
  exists c, centre p1 p2 p3 = Ok c /\ equidistant c p1 p2 p3.
Proof. exact centre_general. Qed.
Example C57_general_ex : exists c, centre (5, 0) (4, 3) (3, 4) = Ok c /\ equidistant c (5, 0) (4, 3) (3, 4).
Proof. apply C57_general; [split; cbn; lra|split; cbn; lra|unfold collinear, cross; cbn; lra]. Qed.
Print Assumptions C57_general.

(* the centre of a circle through the points is found again *)
Theorem C57_recovers : forall o r p1 p2 p3, oblique p1 p2 -> oblique p2 p3 -> p1 <> p3 ->
  d2 o p1 = r -> d2 o p2 = r -> d2 o p3 = r -> centre p1 p2 p3 = Ok o.
Proof. exact centre_recovers. Qed.
Example C57_recovers_ex : centre (5, 0) (4, 3) (3, 4) = Ok (0, 0).
Proof. apply (C57_recovers (0, 0) 25); try (split; cbn; lra); try (unfold d2, Rsqr; cbn; ring). intro Z. injection Z as Z. lra. Qed.
Print Assumptions C57_recovers.

(* points in line on an oblique line are refused *)
Theorem C57_collinear : forall p1 p2 p3, oblique p1 p2 -> oblique p2 p3 -> collinear p1 p2 p3 ->
  centre p1 p2 p3 = RuntimeError.
Proof. exact centre_collinear. Qed.
Example C57_collinear_ex : centre (0, 0) (1, 1) (2, 2) = RuntimeError.
Proof. apply C57_collinear; [split; cbn; lra|split; cbn; lra|unfold collinear, cross; cbn; lra]. Qed.
Print Assumptions C57_collinear.

(* points in line along an axis divide by zero *)
Theorem C57_inline : forall p1 p2 p3,
  (fst p1 = fst p2 /\ fst p2 = fst p3 /\ snd p1 <> snd p2 /\ snd p2 <> snd p3) \/
  (snd p1 = snd p2 /\ snd p2 = snd p3 /\ fst p1 <> fst p2 /\ fst p2 <> fst p3) -> centre p1 p2 p3 = ZeroDivisionError.
Proof. exact centre_inline. Qed.
Example C57_inline_ex : centre (0, 0) (1, 0) (2, 0) = ZeroDivisionError.
Proof. apply C57_inline. right. cbn. repeat split; lra. Qed.
Print Assumptions C57_inline.

(* a horizontal and a vertical chord: the centre is the middle point of the three *)
Theorem C57_corner : forall p1 p2 p3,
  (fst p1 = fst p2 /\ snd p2 = snd p3) \/ (snd p1 = snd p2 /\ fst p2 = fst p3) -> centre p1 p2 p3 = Ok p2.
Proof. exact centre_corner. Qed.
Example C57_corner_ex : centre (3, -4) (3, 4) (-3, 4) = Ok (3, 4).
Proof. apply C57_corner. left. split; reflexivity. Qed.
Print Assumptions C57_corner.

(* which is not the centre of their circle *)
Theorem C57_corner_refuted : exists o p1 p2 p3 c, equidistant o p1 p2 p3 /\ ~ collinear p1 p2 p3 /\
  centre p1 p2 p3 = Ok c /\ c <> o /\ ~ equidistant c p1 p2 p3.
Proof. exact corner_refuted. Qed.
Print Assumptions C57_corner_refuted.

(* a horizontal first chord: the centre is on that chord, so it is right only if the chord is a diameter *)
Theorem C57_horizontal_first : forall p1 p2 p3, snd p1 = snd p2 -> fst p1 <> fst p2 -> oblique p2 p3 ->
  exists c, centre p1 p2 p3 = Ok c /\ d2 c p2 = d2 c p3 /\ snd c = snd p1 /\
    (equidistant c p1 p2 p3 <-> dot (psub p3 p1) (psub p3 p2) = 0).
Proof. exact centre_horizontal1. Qed.
Example C57_horizontal_first_ex : exists c, centre (-5, 0) (5, 0) (3, 4) = Ok c /\ equidistant c (-5, 0) (5, 0) (3, 4).
Proof.
  destruct (C57_horizontal_first (-5, 0) (5, 0) (3, 4)) as (c & E & _ & _ & Q); [reflexivity|cbn; lra|split; cbn; lra|].
  exists c. split; [exact E|]. apply Q. unfold dot; cbn. lra.
Qed.
Print Assumptions C57_horizontal_first.

(* the same for the second chord *)
Theorem C57_horizontal_second : forall p1 p2 p3, oblique p1 p2 -> snd p2 = snd p3 -> fst p2 <> fst p3 ->
  exists c, centre p1 p2 p3 = Ok c /\ d2 c p1 = d2 c p2 /\ snd c = snd p3 /\
    (equidistant c p1 p2 p3 <-> dot (psub p1 p2) (psub p1 p3) = 0).
Proof. exact centre_horizontal2. Qed.
Example C57_horizontal_second_ex : exists c, centre (4, -3) (-3, 4) (3, 4) = Ok c /\ ~ equidistant c (4, -3) (-3, 4) (3, 4).
Proof.
  destruct (C57_horizontal_second (4, -3) (-3, 4) (3, 4)) as (c & E & _ & _ & Q); [split; cbn; lra|reflexivity|cbn; lra|].
  exists c. split; [exact E|]. intro H. apply Q in H. unfold dot in H; cbn in H. lra.
Qed.
Print Assumptions C57_horizontal_second.

Theorem C57_horizontal_refuted : exists o p1 p2 p3 c, equidistant o p1 p2 p3 /\ ~ collinear p1 p2 p3 /\
  centre p1 p2 p3 = Ok c /\ ~ equidistant c p1 p2 p3.
Proof. exact horizontal_refuted. Qed.
Print Assumptions C57_horizontal_refuted.

(* a vertical chord next to an oblique one uses a name that is not bound *)
Theorem C57_vertical : forall p1 p2 p3,
  (fst p1 = fst p2 /\ oblique p2 p3) \/ (oblique p1 p2 /\ fst p2 = fst p3) -> centre p1 p2 p3 = NameError.
Proof. exact centre_vertical. Qed.
Example C57_vertical_ex : centre (4, -3) (4, 3) (3, 4) = NameError.
Proof. apply C57_vertical. left. split; [reflexivity|split; cbn; lra]. Qed.
Print Assumptions C57_vertical.

Theorem C57_vertical_refuted : exists o p1 p2 p3, equidistant o p1 p2 p3 /\ ~ collinear p1 p2 p3 /\ centre p1 p2 p3 = NameError.
Proof. exact vertical_refuted. Qed.
Print Assumptions C57_vertical_refuted.

(* a figure without gaps that starts with a line is converted, and the machine cuts exactly its lines and arcs, each arc about its centre and in its sense of rotation, whichever way round the file gives it *)
Theorem C92_shows : forall a b l, connected (flip b) l ->
  exists prog, gcode (0, 0) (Line a b :: l) = Ok prog /\ forall pos, shows (Line a b :: l) (run pos prog).
Proof. exact gcode_shows. Qed.
Example C92_shows_ex : exists prog, gcode (0, 0) [Line (0, 0) (5, 0); Path (5, 0) [arc1; arc2]; Line (3, -4) (0, 0)] = Ok prog /\
  forall pos, shows [Line (0, 0) (5, 0); Path (5, 0) [arc1; arc2]; Line (3, -4) (0, 0)] (run pos prog).
Proof. apply C92_shows. exact figure_connected. Qed.
Print Assumptions C92_shows.

(* one command per drawn element and one to go to the first point *)
Theorem C92_length : forall tr l prog, gcode tr l = Ok prog -> prog <> [] -> length prog = S (length (filter drawn l)).
Proof. exact gcode_length. Qed.
Example C92_length_ex : forall prog, gcode (0, 0) [Line (0, 0) (1, 0); Other; Line (1, 0) (1, 1)] = Ok prog -> length prog = 3%nat.
Proof. intros prog E. apply (C92_length _ _ _ E). injection E as <-. unfold do_line. cbn [out rev app st0]. discriminate. Qed.
Print Assumptions C92_length.

(* a line given from its second end is not cut *)
Theorem C92_reversed_line_refuted : exists l prog, gcode (0, 0) l = Ok prog /\
  (forall pos, run pos prog = [Seg (0, 0) (1, 0); Seg (1, 0) (1, 0)]) /\
  l = [Line (0, 0) (1, 0); Line (2, 0) (1, 0)] /\ forall pos, ~ shows l (run pos prog).
Proof. exact reversed_line_refuted. Qed.
Print Assumptions C92_reversed_line_refuted.

(* the translation of the figure moves the lines but not the paths *)
Theorem C92_path_not_moved_refuted : forall tr a b m cs prog, Forall (fun c => snd c = []) cs -> cs <> [] -> gcode tr [Line a b; Path m cs] = Ok prog ->
  exists k, prog = [G00 (flip (padd a tr)); G01 (flip (padd b tr)); k] /\ (target k = first_pt m \/ target k = last_pt m cs).
Proof. exact path_not_moved. Qed.
Example C92_path_not_moved_refuted_ex : forall prog, gcode (1, 0) [Line (0, 0) (5, 0); Path (5, 0) [arc1; arc2]] = Ok prog ->
  exists k, prog = [G00 (flip (padd (0, 0) (1, 0))); G01 (flip (padd (5, 0) (1, 0))); k] /\
    (target k = first_pt (5, 0) \/ target k = last_pt (5, 0) [arc1; arc2]).
Proof. intros prog E. apply C92_path_not_moved_refuted; [repeat constructor|discriminate|exact E]. Qed.
Print Assumptions C92_path_not_moved_refuted.

(* a path that only moves repeats the end of the last arc, wherever it moves to *)
Theorem C92_move_only_refuted : forall s m cs s1 m', cs <> [] -> do_path s m cs = Ok s1 ->
  exists k, out s1 = k :: out s /\ do_path s1 m' [] = Ok {| out := G01 (target k) :: k :: out s; end_curve := Some (target k) |}.
Proof. exact move_only_stale. Qed.
Example C92_move_only_refuted_ex : exists s s1, do_path s (5, 0) [arc1; arc2] = Ok s1 /\
  forall m', exists k, out s1 = k :: out s /\ do_path s1 m' [] = Ok {| out := G01 (target k) :: k :: out s; end_curve := Some (target k) |}.
Proof.
  exists {| out := [G00 (5, 0)]; end_curve := None |}.
  destruct (path_step (5, 0) [arc1; arc2] {| out := [G00 (5, 0)]; end_curve := None |} (G00 (5, 0)) [] (5, 0) arcs_circular eq_refl eq_refl)
    as (s1 & k & c & r & sg & a & b & E & _).
  exists s1. split; [exact E|]. intro m'. apply (fun N => C92_move_only_refuted _ _ _ _ m' N E). discriminate.
Qed.
Print Assumptions C92_move_only_refuted.

(* a figure that starts with a path is not converted *)
Theorem C92_path_first_refuted : forall tr m cs l, circular m cs -> gcode tr (Path m cs :: l) = IndexError.
Proof. exact path_first_refuted. Qed.
Example C92_path_first_refuted_ex : gcode (0, 0) [Path (5, 0) [arc1; arc2]] = IndexError.
Proof. apply C92_path_first_refuted. exact arcs_circular. Qed.
Print Assumptions C92_path_first_refuted.

(* several cubics after one letter: all but the last are skipped *)
Theorem C92_polycubic_refuted : exists m cs, path_end (first_pt m) cs <> last_pt m cs.
Proof. exact polycubic_refuted. Qed.
Print Assumptions C92_polycubic_refuted.

(* a circle of two halves is refused *)
Theorem C92_two_halves_refuted : forall m f g, oblique (flip m) (padd (curve_move f) (flip m)) ->
  padd (curve_move g) (padd (curve_move f) (flip m)) = flip m -> forall s, do_path s m [f; g] = RuntimeError.
Proof. exact two_halves_refuted. Qed.
Example C92_two_halves_refuted_ex : forall s, do_path s (0, 0) [({| c1 := (0, 0); c2 := (0, 0); e := (1, 1) |}, []); ({| c1 := (0, 0); c2 := (0, 0); e := (-1, -1) |}, [])] = RuntimeError.
Proof.
  apply C92_two_halves_refuted; unfold oblique, curve_move, padd, flip; cbn; [split; lra|]. f_equal; ring.
Qed.
Print Assumptions C92_two_halves_refuted.
