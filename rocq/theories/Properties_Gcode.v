(* Properties of G-code reading, block division, conversion and the scheduler's window. *)
From Coq Require Import String Ascii List QArith ZArith Bool Arith.
From Verif Require Import Gcode_Model Gcode_Spec Gcode_Proofs Gcode_Proofs2.
Import ListNotations.
Open Scope nat_scope.

(* the blocks are, in order, exactly the motions of the program that travel *)
Theorem C41_meaning : forall num lines bs, create_blocks num [] lines = Some bs ->
  exists cs, parse_all num lines = Some cs /\ kept travels (moves (origin cs) cs) (map view bs).
Proof. exact create_blocks_meaning. Qed.
Example C41_meaning_ex : exists bs,
  create_blocks decimal [] ["G00 X1 Y1"; "N2 (pause)"; "G01 X2"; "G01 X2"; "G03 X4 I1 J0"]%string = Some bs /\
  map view bs = [(G01, (1, 1, 0), (2, 1, 0)); (G03, (2, 1, 0), (4, 1, 0))]%Q.
Proof. eexists. split; vm_compute; reflexivity. Qed.
Print Assumptions C41_meaning.

(* consecutive blocks are linked, also across dropped commands, and no kept block stands still *)
Theorem C41_chain : forall num lines bs, create_blocks num [] lines = Some bs ->
  linked bs /\ Forall (fun b => travels (view b)) bs.
Proof. exact create_blocks_linked. Qed.
Print Assumptions C41_chain.

(* the last block ends where the program ends *)
Theorem C41_end : forall num lines bs b, create_blocks num [] lines = Some bs -> last_block bs = Some b ->
  exists cs, parse_all num lines = Some cs /\ peq (bend b) (final (origin cs) cs).
Proof. exact create_blocks_end. Qed.
Print Assumptions C41_end.

(* a reader that already holds blocks goes on from the end of its last block *)
Theorem C41_continued : forall num bs b lines bs', create_blocks num (bs ++ [b]) lines = Some bs' ->
  exists cs new, parse_all num lines = Some cs /\ bs' = (bs ++ [b]) ++ new /\
    kept travels (moves (bend b) cs) (map view new).
Proof. exact create_blocks_more. Qed.
Example C41_continued_ex : exists bs',
  create_blocks decimal [make_block G01 no_command (5, 5, 0)%Q] ["G01 X6"]%string = Some bs' /\
  map view (tl bs') = [(G01, (5, 5, 0), (6, 5, 0))]%Q.
Proof. eexists. split; vm_compute; reflexivity. Qed.
Print Assumptions C41_continued.

(* words without motion code and address letter can be dropped from a line *)
Theorem C41_words : forall num ws1 w ws2 d, meaningless w ->
  parse_words num d (ws1 ++ w :: ws2) = parse_words num d (ws1 ++ ws2).
Proof. exact parse_meaningless. Qed.
Example C41_words_ex : meaningless "F100".
Proof.
  split; [intros [H|[H|[H|[H|[]]]]]; discriminate H|].
  intros a A H. repeat (destruct A as [<-|A]; [repeat (destruct H as [H|H]; [discriminate H|]); destruct H|]). destruct A.
Qed.
Print Assumptions C41_words.

(* a leading G00 only sets the position *)
Theorem C41_rapid : forall c cs, ctype c = Some G00 ->
  blocks_from None (c :: cs) = blocks_from (generate c None) cs.
Proof. exact leading_rapid. Qed.
Example C41_rapid_ex : ctype (Cmd (Some G00) (Some 3%Q) None None None None None None) = Some G00.
Proof. reflexivity. Qed.
Print Assumptions C41_rapid.

(* the centre of an arc is its start plus the offsets I and J *)
Theorem C41_center : forall g c prev b i j, g = G02 \/ g = G03 -> ctype c = Some g -> cI c = Some i -> cJ c = Some j ->
  generate c prev = Some b ->
  (px (bcenter b) = px (bstart b) + i /\ py (bcenter b) = py (bstart b) + j)%Q.
Proof. exact arc_center. Qed.
Print Assumptions C41_center.

(* an omitted offset does not mean zero offset: the centre is put at coordinate 0 *)
Theorem C41_center_refuted : exists c prev b, ctype c = Some G02 /\ cI c = Some 1%Q /\ cJ c = None /\ generate c prev = Some b /\
  ~ (py (bcenter b) == py (bstart b))%Q.
Proof.  exists (Cmd (Some G02) None None None (Some 1%Q) None None None), (Some (make_block G01 no_command (0, 5, 0)%Q)).
  eexists. do 3 (split; [reflexivity|]). split; [reflexivity|]. intros H; discriminate H. Qed.
Print Assumptions C41_center_refuted.

(* no program can change the feed rate: every block has the default 444 *)
Theorem C41_feed : forall num lines bs, create_blocks num [] lines = Some bs ->
  Forall (fun b => bfeed b = 444%Q) bs.
Proof. exact create_blocks_feed. Qed.
Print Assumptions C41_feed.

Theorem C41_feed_refuted : exists line b, line = "G01 X1 F100"%string /\ create_blocks decimal [] [line] = Some [b] /\ bfeed b <> 100%Q.
Proof.  do 2 eexists. split; [reflexivity|]. split; [vm_compute; reflexivity|]. intros H; discriminate H. Qed.
Print Assumptions C41_feed_refuted.

(* a comment of several words is not skipped: the word X10) is read as a number and fails *)
Theorem C41_comment_refuted : exists line, line = "G01 X1 (move to X10)"%string /\ parse decimal line = None.
Proof.  eexists. split; [reflexivity|]. vm_compute. reflexivity. Qed.
Print Assumptions C41_comment_refuted.

(* reading a file without subfile calls keeps exactly the lines that start with G, or with N and hold a motion code *)
Theorem C41_read : forall op lines,
  Forall (fun l => exists c, classify l = Some c /\ forall fs, c <> Sub fs) lines ->
  read op lines = Some (filter (fun l => match classify l with Some Keep => true | _ => false end) lines).
Proof. exact read_plain. Qed.
Example C41_read_ex : read (fun _ => None) ["%"; "(x)"; "G00 X1"; "N10 G01 X2"; "N20 M30"]%string
  = Some ["G00 X1"; "N10 G01 X2"]%string.
Proof. vm_compute. reflexivity. Qed.
Print Assumptions C41_read.

(* a blank line makes reading fail *)
Theorem C41_blank : forall op lines, In EmptyString lines -> read op lines = None.
Proof. exact read_blank. Qed.
Print Assumptions C41_blank.

(* a called subfile is executed after the whole main file, not where it is called *)
Theorem C41_subfile_refuted : exists op lines, lines = ["N1 L part.nc"; "G01 X1"]%string /\ op "part.nc"%string = Some ["G01 X5"]%string /\
  read op lines = Some ["G01 X1"; "G01 X5"]%string.
Proof.  exists (fun f => if String.eqb f "part.nc" then Some ["G01 X5"]%string else None). eexists.
  split; [reflexivity|]. split; vm_compute; reflexivity. Qed.
Print Assumptions C41_subfile_refuted.

(* the connection list holds all block starts *)
Theorem C41_connections : forall bs cs, get_connections bs = Some cs ->
  firstn (length bs) cs = map bstart bs /\ length cs = length bs + 2.
Proof. exact connections_starts. Qed.
Example C41_connections_ex : get_connections [make_block G01 no_command (1, 2, 3)%Q]
  = Some [(1, 2, 3); (1, 2, 3); (1, 2, 3)]%Q.
Proof. reflexivity. Qed.
Print Assumptions C41_connections.

(* but the end of the last block can be missing: its start is listed twice *)
Theorem C41_connections_refuted : exists bs cs b, get_connections bs = Some cs /\ last_block bs = Some b /\
  Forall (fun p => ~ peq p (bend b)) cs.
Proof.  exists [make_block G01 (Cmd (Some G01) (Some 1%Q) None None None None None None) (0, 0, 0)%Q].
  do 2 eexists. do 2 (split; [reflexivity|]). cbn.
  repeat constructor; intros (H & _); discriminate H. Qed.
Print Assumptions C41_connections_refuted.

(* the pieces put together are the program *)
Theorem C42_lossless : forall bs, concat (get_block_division bs) = bs.
Proof.  intros bs. exact (division_concat bs []). Qed.
Print Assumptions C42_lossless.

(* every piece is a single change of height or contains none *)
Theorem C42_pieces : forall bs,
  Forall (fun p => (exists b, p = [b] /\ changes_height b) \/ Forall (fun b => ~ changes_height b) p)
         (get_block_division bs).
Proof.  intros bs. exact (division_pieces bs [] (Forall_nil _)). Qed.
Example C42_pieces_ex :
  let m z0 z1 := make_block G01 (Cmd (Some G01) (Some 1%Q) None (Some z1) None None None None) (0, 0, z0)%Q in
  map (map view) (get_block_division [m 0 0; m 0 1; m 1 1; m 1 1])%Q =
  [[view (m 0 0)]; [view (m 0 1)]; [view (m 1 1); view (m 1 1)]]%Q.
Proof. reflexivity. Qed.
Print Assumptions C42_pieces.

(* only the last piece can be empty *)
Theorem C42_proper : forall bs pre p post, get_block_division bs = pre ++ p :: post -> post <> [] -> p <> [].
Proof.  intros bs. exact (division_nonempty bs []). Qed.
Print Assumptions C42_proper.

(* and it is empty exactly when the program ends with a change of height *)
Theorem C42_last : forall bs, bs <> [] ->
  (last (get_block_division bs) [] = [] <-> exists b, last_block bs = Some b /\ changes_height b).
Proof.  intros bs N. unfold get_block_division. rewrite division_last. destruct (last_block bs) as [b|] eqn:E.
  - split; [intros H; exists b; auto|intros (b' & H & C); injection H as ->; exact C].
  - exfalso. destruct bs as [|b0 bs]; [apply N; reflexivity|]. exact (last_block_some bs b0 E). Qed.
Print Assumptions C42_last.

(* rooms are numbered consecutively, unless tolerances vary and an arc is split *)
Theorem C45_numbers : forall vt ps n,
  Forall (fun p => match p with Line s => s = true -> vt = true | Arc h => vt = false \/ h = 1 end) ps ->
  room_numbers vt ps n = seq n (length (room_numbers vt ps n)).
Proof. exact room_numbers_consecutive. Qed.
Example C45_numbers_ex : room_numbers true [Line true; Arc 1; Line false] 0 = [0; 1; 2; 3; 4; 5; 6].
Proof. reflexivity. Qed.
Print Assumptions C45_numbers.

(* with varying tolerances both halves of a split arc get the same numbers *)
Theorem C45_numbers_refuted : exists ps, ~ NoDup (room_numbers true ps 0).
Proof.  exists [Arc 2]. cbn. intros H. inversion H as [|a l N _]. apply N. cbn. tauto. Qed.
Print Assumptions C45_numbers_refuted.

(* after any sequence of solves the window is the contiguous run of rooms from the current block on, as
   long as requested and available, and the local problem gets exactly these rooms *)
Theorem C45_window : forall rooms N goal, numbered rooms -> 1 <= N -> N <= length rooms ->
  (forall l, last (map Some rooms) None = Some l -> peq (rend l) goal) ->
  forall ins, exists st0 st,
    reinitialize rooms N = Some st0 /\ solve_steps rooms goal ins st0 = Some st /\
    n_cur st < length rooms /\ n_seg st = Nat.min N (length rooms - n_cur st) /\
    segs st = slice rooms (n_cur st) (n_cur st + n_seg st) /\ local_rooms rooms st = segs st.
Proof. exact window_main. Qed.
Example C45_window_ex : let r i := Room i (inject_Z (Z.of_nat i), 0, 0)%Q (inject_Z (Z.of_nat i + 1), 0, 0)%Q in
  let rooms := [r 0; r 1; r 2; r 3] in
  numbered rooms /\ (forall l, last (map Some rooms) None = Some l -> peq (rend l) (4, 0, 0)%Q) /\
  match reinitialize rooms 2 with
  | Some st0 => match solve_steps rooms (4, 0, 0)%Q [fun _ => true; fun _ => false; fun _ => true] st0 with
                | Some st => n_cur st = 2 /\ segs st = [r 2; r 3] | None => False end
  | None => False end.
Proof.
  split; [|split].
  - intros [|[|[|[|i]]]] r E; try (injection E as <-; reflexivity). destruct i; discriminate E.
  - intros l E. cbn in E. injection E as <-. repeat split; reflexivity.
  - vm_compute. auto.
Qed.
Print Assumptions C45_window.

(* one solve advances by at most one room, and only when the state is inside the room it advances to *)
Theorem C45_advance : forall rooms N goal, numbered rooms -> 1 <= N -> N <= length rooms ->
  (forall l, last (map Some rooms) None = Some l -> peq (rend l) goal) ->
  forall ins i, exists st0 st st', reinitialize rooms N = Some st0 /\
    solve_steps rooms goal ins st0 = Some st /\ solve_steps rooms goal (ins ++ [i]) st0 = Some st' /\
    (n_cur st' = n_cur st \/
     n_cur st' = S (n_cur st) /\ exists r, nth_error rooms (n_cur st') = Some r /\ i r = true).
Proof. exact window_monotone. Qed.
Print Assumptions C45_advance.

(* if no earlier room looks like the last one, the window reaches the last room when the state follows *)
Theorem C45_progress : forall rooms N goal, numbered rooms -> 1 <= N -> N <= length rooms ->
  (forall l, last (map Some rooms) None = Some l -> peq (rend l) goal) ->
  forall m, (forall i r, nth_error rooms i = Some r -> S i < length rooms -> is_last rooms goal r = false) ->
  exists st0 st, reinitialize rooms N = Some st0 /\
    solve_steps rooms goal (repeat (fun _ => true) m) st0 = Some st /\
    n_cur st = Nat.min m (length rooms - 1).
Proof. exact window_progress. Qed.
Print Assumptions C45_progress.

(* asking for more segments than rooms fails *)
Theorem C45_too_many : forall rooms n, length rooms < n -> reinitialize rooms n = None.
Proof. exact reinit_too_many. Qed.
Example C45_too_many_ex : reinitialize [Room 0 (0, 0, 0)%Q (1, 0, 0)%Q] 2 = None.
Proof. reflexivity. Qed.
Print Assumptions C45_too_many.

(* a program whose first move equals its last move never leaves the first room *)
Theorem C45_stuck_refuted : exists rooms goal st0 st, numbered rooms /\
  (forall l, last (map Some rooms) None = Some l -> peq (rend l) goal) /\
  reinitialize rooms 2 = Some st0 /\ solve_steps rooms goal (repeat (fun _ => true) 5) st0 = Some st /\ n_cur st = 0.
Proof.  exists [Room 0 (0, 0, 0)%Q (1, 0, 0)%Q; Room 1 (1, 0, 0)%Q (0, 0, 0)%Q; Room 2 (0, 0, 0)%Q (1, 0, 0)%Q], (1, 0, 0)%Q.
  do 2 eexists. split; [|split].
  - intros [|[|[|i]]] r E; try (injection E as <-; reflexivity). destruct i; discriminate E.
  - intros l E. cbn in E. injection E as <-. repeat split; reflexivity.
  - split; [reflexivity|]. split; vm_compute; reflexivity. Qed.
Print Assumptions C45_stuck_refuted.

(* the run can stop in an earlier room that ends at the goal of the program *)
Theorem C45_stop_refuted : exists rooms goal st0, numbered rooms /\ length rooms = 3 /\
  (forall l, last (map Some rooms) None = Some l -> peq (rend l) goal) /\
  reinitialize rooms 2 = Some st0 /\ n_cur st0 = 0 /\ stop_criterium goal true st0 = Some true.
Proof.  exists [Room 0 (0, 0, 0)%Q (1, 0, 0)%Q; Room 1 (1, 0, 0)%Q (2, 0, 0)%Q; Room 2 (2, 0, 0)%Q (1, 0, 0)%Q], (1, 0, 0)%Q.
  eexists. split; [|split; [|split]].
  - intros [|[|[|i]]] r E; try (injection E as <-; reflexivity). destruct i; discriminate E.
  - reflexivity.
  - intros l E. cbn in E. injection E as <-. repeat split; reflexivity.
  - split; [reflexivity|]. split; vm_compute; reflexivity. Qed.
Print Assumptions C45_stop_refuted.

(* with the repeated numbers of a split arc the window runs past the end of the room list and fails *)
Theorem C45_renumbered_refuted : exists rooms goal st0 st1, map rnumber rooms = room_numbers true [Arc 2] 0 /\
  reinitialize rooms 2 = Some st0 /\ solve_steps rooms goal (repeat (fun _ => true) 3) st0 = Some st1 /\
  solve_steps rooms goal (repeat (fun _ => true) 5) st0 = None.
Proof.  exists [Room 0 (0, 0, 0)%Q (1, 0, 0)%Q; Room 1 (1, 0, 0)%Q (2, 0, 0)%Q; Room 2 (2, 0, 0)%Q (3, 0, 0)%Q;
          Room 0 (3, 0, 0)%Q (4, 0, 0)%Q; Room 1 (4, 0, 0)%Q (5, 0, 0)%Q; Room 2 (5, 0, 0)%Q (6, 0, 0)%Q], (6, 0, 0)%Q.
  do 2 eexists. split; [reflexivity|]. split; [reflexivity|]. split; vm_compute; reflexivity. Qed.
Print Assumptions C45_renumbered_refuted.

(* the blocks of the converted program are the shifted and scaled blocks of the original: end points, and
   centres of arcs *)
Theorem C73_convert : forall num str ox oy k lines lines' cs,
  faithful num str -> ~ (k == 0)%Q ->
  Forall2 (fun ws vs => convert_words num str ox oy k ws = Some vs) lines lines' ->
  Forall (Forall clean) lines ->
  Forall2 (fun ws c => parse_words num no_command ws = Some c) lines cs ->
  arcs_complete cs -> starts_placed cs ->
  exists cs', Forall2 (fun vs c => parse_words num no_command vs = Some c) lines' cs' /\
    Forall2 (image ox oy k) (blocks_from None cs) (blocks_from None cs').
Proof. exact convert_blocks. Qed.
Example C73_convert_ex : faithful tally_num tally_str /\
  let lines := [["G00"; "Xpd"; "Ypd"]; ["G02"; "Xpppd"; "Ipd"; "Jd"]]%string in
  exists lines' cs,
  Forall2 (fun ws vs => convert_words tally_num tally_str 1 1 2 ws = Some vs) lines lines' /\
  Forall2 (fun ws c => parse_words tally_num no_command ws = Some c) lines cs /\
  arcs_complete cs /\ starts_placed cs /\ length (blocks_from None cs) = 1 /\ Forall (Forall clean) lines.
Proof.
  split; [exact tally_faithful|]. cbv zeta. do 2 eexists. split; [|split].
  - repeat (constructor; [vm_compute; reflexivity|]). constructor.
  - repeat (constructor; [vm_compute; reflexivity|]). constructor.
  - split; [|split; [|split]].
    + intros c [<-|[<-|[]]] [H|H]; try discriminate H; split; discriminate.
    + repeat split; discriminate.
    + reflexivity.
    + repeat constructor; intros a b A B HA HB; cbn in A, B, HA, HB;
        repeat (destruct HA as [<-|HA]; [repeat (destruct HB as [<-|HB]; [try reflexivity; exfalso;
          repeat (destruct A as [A|A]; [discriminate A|]); repeat (destruct B as [B|B]; [discriminate B|]); tauto|]); destruct HB|]); destruct HA.
Qed.
Print Assumptions C73_convert.

(* a program whose first move leaves out a coordinate is not shifted in that coordinate *)
Theorem C73_offset_refuted : exists num str ws vs c c' b b', faithful num str /\
  convert_words num str 1 0 1 ws = Some vs /\
  parse_words num no_command ws = Some c /\ parse_words num no_command vs = Some c' /\
  generate c None = Some b /\ generate c' None = Some b' /\
  peq (bend b) (bend b') /\ ~ peq (bend b') (place 1 0 1 (bend b)).
Proof.  exists tally_num, tally_str, ["G01"; "Ypd"]%string. do 5 eexists. split; [exact tally_faithful|].
  do 3 (split; [vm_compute; reflexivity|]). do 2 (split; [vm_compute; reflexivity|]).
  split; [repeat split; vm_compute; reflexivity|]. intros (H & _). vm_compute in H. discriminate H. Qed.
Print Assumptions C73_offset_refuted.

(* an arc without I keeps its centre at coordinate 0 instead of moving with the program *)
Theorem C73_center_refuted : exists num str ws vs c c' p p' b b', faithful num str /\
  convert_words num str 1 0 1 ws = Some vs /\
  parse_words num no_command ws = Some c /\ parse_words num no_command vs = Some c' /\
  peq (bend p') (place 1 0 1 (bend p)) /\
  generate c (Some p) = Some b /\ generate c' (Some p') = Some b' /\
  ~ (px (bcenter b') == px (bcenter b) - 1)%Q.
Proof.  exists tally_num, tally_str, ["G02"; "Xppd"; "Jpd"]%string. do 3 eexists.
  exists (make_block G01 no_command (5, 5, 0)%Q), (make_block G01 no_command (4, 5, 0)%Q). do 2 eexists.
  split; [exact tally_faithful|]. do 3 (split; [vm_compute; reflexivity|]).
  split; [repeat split; vm_compute; reflexivity|]. do 2 (split; [vm_compute; reflexivity|]).
  intros H. vm_compute in H. discriminate H. Qed.
Print Assumptions C73_center_refuted.
