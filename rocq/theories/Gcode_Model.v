(* Model of omgtools/gui/gcode_block.py, gui/gcode_reader.py and of the room
   bookkeeping of problems/gcodeschedulerproblem.py.  Coordinates are exact
   rationals; Python's float() and str() on numbers are arguments (num, str). *)
From Coq Require Import String Ascii List QArith ZArith Bool Arith.
Import ListNotations.
Open Scope string_scope.
Open Scope list_scope.
Open Scope nat_scope.

(* ---------- lines and commands ---------- *)

(* the four implemented motion codes, gcode_block.py 299 *)
Inductive gtype := G00 | G01 | G02 | G03.

(* the dictionary built by generate_gcodeblock, gcode_block.py 296-315; the key
   'F' is read by GCodeBlock.__init__ (33-36) *)
Record command := Cmd {
  ctype : option gtype;
  cX : option Q; cY : option Q; cZ : option Q;
  cI : option Q; cJ : option Q; cK : option Q; cF : option Q }.
(* with the above, gcode_block.py 296-315 *)
Definition no_command : command := Cmd None None None None None None None None.

(* Python's `'X' in c` for a one-letter string; used by assign, gcode_block.py 298-315 *)
Fixpoint has (a : ascii) (s : string) : bool :=
  match s with
  | EmptyString => false
  | String b s' => if Ascii.eqb a b then true else has a s'
  end.
(* Python's c[1:]; used by assign, gcode_block.py 298-315 *)
Definition rest (s : string) : string :=
  match s with EmptyString => EmptyString | String _ s' => s' end.
(* str.split() without arguments (gcode_block.py 296): maximal runs of
   non-blank characters; acc is the current run *)
Definition blank (a : ascii) : bool :=
  let n := nat_of_ascii a in ((9 <=? n) && (n <=? 13)) || (n =? 32) || ((28 <=? n) && (n <=? 31)).
(* with the above, gcode_block.py 296 *)
Definition flush (acc : string) (ws : list string) : list string :=
  match acc with EmptyString => ws | _ => acc :: ws end.
(* with the above, gcode_block.py 296 *)
Fixpoint split_from (acc s : string) : list string :=
  match s with
  | EmptyString => flush acc []
  | String a s' =>
      if blank a then flush acc (split_from EmptyString s')
      else split_from (acc ++ String a EmptyString) s'
  end.
(* with the above, gcode_block.py 296 *)
Definition split (s : string) : list string := split_from EmptyString s.

(* used by assign, gcode_block.py 298-315 *)
Definition motion_word (w : string) : option gtype :=
  if String.eqb w "G00" then Some G00 else if String.eqb w "G01" then Some G01
  else if String.eqb w "G02" then Some G02 else if String.eqb w "G03" then Some G03 else None.

(* gcode_block.py 298-315, one turn of the loop; None is the ValueError of float *)
Definition assign (num : string -> option Q) (d : command) (w : string) : option command :=
  match motion_word w with
  | Some g => Some (Cmd (Some g) (cX d) (cY d) (cZ d) (cI d) (cJ d) (cK d) (cF d))
  | None =>
    if has "(" w then Some d
    else if has "X" w then
      match num (rest w) with Some q => Some (Cmd (ctype d) (Some q) (cY d) (cZ d) (cI d) (cJ d) (cK d) (cF d)) | None => None end
    else if has "Y" w then
      match num (rest w) with Some q => Some (Cmd (ctype d) (cX d) (Some q) (cZ d) (cI d) (cJ d) (cK d) (cF d)) | None => None end
    else if has "Z" w then
      match num (rest w) with Some q => Some (Cmd (ctype d) (cX d) (cY d) (Some q) (cI d) (cJ d) (cK d) (cF d)) | None => None end
    else if has "I" w then
      match num (rest w) with Some q => Some (Cmd (ctype d) (cX d) (cY d) (cZ d) (Some q) (cJ d) (cK d) (cF d)) | None => None end
    else if has "J" w then
      match num (rest w) with Some q => Some (Cmd (ctype d) (cX d) (cY d) (cZ d) (cI d) (Some q) (cK d) (cF d)) | None => None end
    else if has "K" w then
      match num (rest w) with Some q => Some (Cmd (ctype d) (cX d) (cY d) (cZ d) (cI d) (cJ d) (Some q) (cF d)) | None => None end
    else Some d
  end.
(* with the above, gcode_block.py 298-315 *)
Fixpoint parse_words (num : string -> option Q) (d : command) (ws : list string) : option command :=
  match ws with
  | [] => Some d
  | w :: ws' => match assign num d w with Some d' => parse_words num d' ws' | None => None end
  end.
(* with the above, gcode_block.py 298-315 *)
Definition parse (num : string -> option Q) (line : string) : option command :=
  parse_words num no_command (split line).

(* ---------- blocks ---------- *)

Notation pos := (Q * Q * Q)%type.
(* with the above, gcode_block.py 298-315 *)
Definition px (p : pos) : Q := fst (fst p).
(* with the above, gcode_block.py 298-315 *)
Definition py (p : pos) : Q := snd (fst p).
(* with the above, gcode_block.py 298-315 *)
Definition pz (p : pos) : Q := snd p.
(* with the above, gcode_block.py 298-315 *)
Definition or_else (o : option Q) (d : Q) : Q := match o with Some q => q | None => d end.

(* gcode_block.py 7-40 and 62-79: X0..Z0, X1..Z1, the centre and the feed rate *)
Record block := Block { btype : gtype; bstart : pos; bend : pos; bcenter : pos; bfeed : Q }.

(* gcode_block.py 7-40, GCodeBlock.__init__; start is the position the block
   starts from; 69-78/179-188 the centre of G02/G03 (left at 0 for a missing word) *)
Definition make_block (g : gtype) (c : command) (start : pos) : block :=
  Block g start
    (or_else (cX c) (px start), or_else (cY c) (py start), or_else (cZ c) (pz start))
    (match g with
     | G02 | G03 =>
        (match cI c with Some i => px start + i | None => 0 end,
         match cJ c with Some j => py start + j | None => 0 end,
         match cK c with Some k => pz start + k | None => 0 end)
     | _ => (0, 0, 0)
     end)%Q
    (or_else (cF c) 444%Q).

(* gcode_block.py 317-344, generate_gcodeblock; None is Python's None *)
Definition generate (c : command) (prev : option block) : option block :=
  match ctype c with
  | None => None
  | Some g =>
    Some (make_block g c
      match prev with
      | Some b => bend b
      | None => match g with
                | G00 => (or_else (cX c) 0, or_else (cY c) 0, or_else (cZ c) 0)
                | _ => (0, 0, 0)
                end%Q
      end)
  end.

(* gcode_reader.py 170-174: a straight block without movement *)
Definition straight (g : gtype) : bool := match g with G00 | G01 => true | _ => false end.
(* with the above, gcode_reader.py 170-174 *)
Definition same_pos (p q : pos) : bool :=
  Qeq_bool (px p) (px q) && Qeq_bool (py p) (py q) && Qeq_bool (pz p) (pz q).
(* with the above, gcode_reader.py 170-174 *)
Definition idle (b : block) : bool := straight (btype b) && same_pos (bstart b) (bend b).

(* gcode_reader.py 167-183, the loop of create_blocks *)
Fixpoint blocks_from (prev : option block) (cs : list command) : list block :=
  match cs with
  | [] => []
  | c :: cs' =>
    match generate c prev with
    | None => blocks_from prev cs'
    | Some b => if idle b then blocks_from (Some b) cs' else b :: blocks_from (Some b) cs'
    end
  end.
(* with the above, gcode_reader.py 167-183 *)
Fixpoint parse_all (num : string -> option Q) (lines : list string) : option (list command) :=
  match lines with
  | [] => Some []
  | l :: ls => match parse num l with
               | None => None
               | Some c => match parse_all num ls with Some cs => Some (c :: cs) | None => None end
               end
  end.
(* with the above, gcode_reader.py 167-183 *)
Fixpoint last_block (bs : list block) : option block :=
  match bs with [] => None | [b] => Some b | _ :: bs' => last_block bs' end.
(* gcode_reader.py 159-183, create_blocks on a reader holding the blocks bs; all
   lines are parsed before the first block is kept (the code interleaves the two
   and stops at the first bad line) *)
Definition create_blocks (num : string -> option Q) (bs : list block) (lines : list string)
  : option (list block) :=
  match parse_all num lines with
  | None => None
  | Some cs => Some (bs ++ blocks_from (last_block bs) cs)
  end.

(* gcode_reader.py 188-220, get_block_division; cur is `blocks` *)
Definition z_move (b : block) : bool := straight (btype b) && negb (Qeq_bool (pz (bstart b)) (pz (bend b))).
(* with the above, gcode_reader.py 188-220 *)
Fixpoint division_from (cur : list block) (bs : list block) : list (list block) :=
  match bs with
  | [] => [cur]
  | b :: bs' =>
      if z_move b then
        match cur with [] => [] | _ => [cur] end ++ [b] :: division_from [] bs'
      else division_from (cur ++ [b]) bs'
  end.
(* with the above, gcode_reader.py 188-220 *)
Definition get_block_division (bs : list block) : list (list block) := division_from [] bs.

(* gcode_reader.py 222-229, get_connections; None is the IndexError on an empty list *)
Definition get_connections (bs : list block) : option (list pos) :=
  match bs, last_block bs with
  | b0 :: _, Some bl => Some (map bstart bs ++ [bstart bl; bstart b0])
  | _, _ => None
  end.

(* ---------- reading a file ---------- *)

(* Python's `code in line` for strings; with gcode_reader.py 222-229 *)
Fixpoint prefix_of (p s : string) : bool :=
  match p, s with
  | EmptyString, _ => true
  | String a p', String b s' => Ascii.eqb a b && prefix_of p' s'
  | _, _ => false
  end.
(* with the above, gcode_reader.py 222-229 *)
Fixpoint occurs (p s : string) : bool :=
  prefix_of p s || match s with EmptyString => false | String _ s' => occurs p s' end.
(* gcode_reader.py 23, the codes recognised in numbered lines *)
Definition has_code (l : string) : bool :=
  occurs "G00" l || occurs "G01" l || occurs "G02" l || occurs "G03" l.
(* gcode_reader.py 131-146: what one stripped line contributes; None is the
   IndexError of line[0] on an empty line *)
Inductive line_class := Skip | Keep | Sub (files : list string).
(* with the above, gcode_reader.py 131-146 *)
Definition classify (l : string) : option line_class :=
  match l with
  | EmptyString => None
  | String a _ =>
    if Ascii.eqb a "(" then Some Skip
    else if Ascii.eqb a "G" || (Ascii.eqb a "N" && has_code l) then Some Keep
    else if Ascii.eqb a "N" && occurs " L " l then Some (Sub (filter (occurs ".nc") (split l)))
    else Some Skip
  end.
(* gcode_reader.py 153-157: what one stripped line of a subfile contributes *)
Definition classify_sub (l : string) : option line_class :=
  match l with
  | EmptyString => None
  | String a _ => if Ascii.eqb a "G" || (Ascii.eqb a "N" && has "G" l) then Some Keep else Some Skip
  end.
(* with the above, gcode_reader.py 153-157 *)
Fixpoint read_main (lines : list string) : option (list string * list string) :=
  match lines with
  | [] => Some ([], [])
  | l :: ls =>
    match classify l, read_main ls with
    | Some c, Some (cmds, subs) =>
        Some match c with Skip => (cmds, subs) | Keep => (l :: cmds, subs) | Sub fs => (cmds, fs ++ subs) end
    | _, _ => None
    end
  end.
(* with the above, gcode_reader.py 153-157 *)
Fixpoint read_sub (lines : list string) : option (list string) :=
  match lines with
  | [] => Some []
  | l :: ls =>
    match classify_sub l, read_sub ls with
    | Some Keep, Some cmds => Some (l :: cmds)
    | Some _, Some cmds => Some cmds
    | _, _ => None
    end
  end.
(* with the above, gcode_reader.py 153-157 *)
Fixpoint read_subs (open_file : string -> option (list string)) (fs : list string) : option (list string) :=
  match fs with
  | [] => Some []
  | f :: fs' =>
    match open_file f with
    | None => None
    | Some ls => match read_sub ls, read_subs open_file fs' with Some a, Some b => Some (a ++ b) | _, _ => None end
    end
  end.
(* gcode_reader.py 124-157, read: the commands it appends; lines are stripped and
   decoded, open_file reads a subfile *)
Definition read (open_file : string -> option (list string)) (lines : list string) : option (list string) :=
  match read_main lines with
  | None => None
  | Some (cmds, subs) => match read_subs open_file subs with Some more => Some (cmds ++ more) | None => None end
  end.

(* ---------- shifting and scaling a program ---------- *)

(* gcode_reader.py 78-86: one word under the offset; the two tests look at the
   word as it was *)
Definition shift_word (num : string -> option Q) (str : Q -> string) (ox oy : Q) (w : string) : option string :=
  match (if has "X" w then match num (rest w) with Some q => Some (String "X" (str (q - ox)%Q)) | None => None end
         else Some w) with
  | None => None
  | Some w1 => if has "Y" w then match num (rest w) with Some q => Some (String "Y" (str (q - oy)%Q)) | None => None end
               else Some w1
  end.
(* gcode_reader.py 95-111: one word under the scaling *)
Definition scale_word (num : string -> option Q) (str : Q -> string) (k : Q) (w : string) : option string :=
  let upd (a : ascii) (w1 : option string) : option string :=
    match w1 with
    | None => None
    | Some v => if has a w then match num (rest w) with Some q => Some (String a (str (q * k)%Q)) | None => None end
                else Some v
    end in
  upd "J"%char (upd "I"%char (upd "Y"%char (upd "X"%char (Some w)))).
(* with the above, gcode_reader.py 95-111 *)
Fixpoint map_words (f : string -> option string) (ws : list string) : option (list string) :=
  match ws with
  | [] => Some []
  | w :: ws' => match f w, map_words f ws' with Some v, Some vs => Some (v :: vs) | _, _ => None end
  end.
(* gcode_reader.py 72-112: the words of one line, shifted and then scaled; the
   join with blanks and the splitting again are left out *)
Definition convert_words (num : string -> option Q) (str : Q -> string) (ox oy k : Q) (ws : list string)
  : option (list string) :=
  match map_words (shift_word num str ox oy) ws with
  | Some ws' => map_words (scale_word num str k) ws'
  | None => None
  end.

(* ---------- room numbers and the scheduler's window ---------- *)

(* gcodeschedulerproblem.py 242-503: how many rooms a block becomes.  Line split:
   split in three; Arc halves: the number of ring pieces (1 or 2, split_ring_segment),
   each divided in three when the tolerance varies *)
Inductive piece := Line (split : bool) | Arc (halves : nat).
(* with the above, gcodeschedulerproblem.py 242-503 *)
Definition new_numbers (variable_tolerance : bool) (p : piece) (number : nat) : list nat :=
  match p with
  | Line false => [number]
  | Line true => [number; number + 1; number + 2]
  | Arc h => if variable_tolerance
             then concat (repeat [number; number + 1; number + 2] h)
             else seq number h
  end.
(* with the above, gcodeschedulerproblem.py 242-503 *)
Fixpoint room_numbers (vt : bool) (ps : list piece) (number : nat) : list nat :=
  match ps with
  | [] => []
  | p :: ps' => let r := new_numbers vt p number in r ++ room_numbers vt ps' (number + length r)
  end.

(* a room as the window logic sees it: gcodeschedulerproblem.py 257, 304-309 *)
Record room := Room { rnumber : nat; rstart : pos; rend : pos }.
(* the scheduler's state: n_current_block, n_segments, segments, next_segment
   (outer None: attribute absent, inner None: set to None); used by reinitialize, gcodeschedulerproblem.py 81-106 *)
Record sched := Sched { n_cur : nat; n_seg : nat; segs : list room; next_seg : option (option room) }.

(* used by reinitialize, gcodeschedulerproblem.py 81-106 *)
Definition slice (rooms : list room) (a b : nat) : list room := firstn (b - a) (skipn a rooms).
(* gcodeschedulerproblem.py 81-106, reinitialize; None: the guess for a segment
   that does not exist (get_init_guess loops over range(n_segments)) *)
Definition reinitialize (rooms : list room) (n : nat) : option sched :=
  let s := slice rooms 0 n in
  if length s <? n then None
  else Some (Sched 0 n s (if (n =? 1) && (1 <? length rooms) then
                            match nth_error rooms 1 with Some r => Some (Some r) | None => None end
                          else None)).

(* gcodeschedulerproblem.py 558-589, check_segments; inside is
   point_in_extended_shape for the current state; None is an exception *)
Definition is_last (rooms : list room) (goal : pos) (s0 : room) : bool :=
  match last (map Some rooms) None with
  | None => false
  | Some l => same_pos (rend s0) goal && same_pos (rstart s0) (rstart l)
  end.
(* with the above, gcodeschedulerproblem.py 558-589 *)
Definition check_segments (rooms : list room) (goal : pos) (inside : room -> bool) (st : sched) : option bool :=
  match segs st with
  | [] => None
  | s0 :: more =>
    if is_last rooms goal s0 then Some true
    else match next_seg st with
         | Some nx => if n_seg st =? 1 then
                        match nx with Some r => Some (negb (inside r)) | None => None end
                      else match more with s1 :: _ => Some (negb (inside s1)) | [] => None end
         | None => match more with s1 :: _ => Some (negb (inside s1)) | [] => None end
         end
  end.
(* gcodeschedulerproblem.py 598-617, update_segments, called with n_current_block
   already increased (132-133) *)
Definition update_segments (rooms : list room) (st : sched) : option sched :=
  match last (map Some (segs st)) None with
  | None => None
  | Some l =>
    let cnt := length rooms - 1 in
    if rnumber l <? cnt then
      match nth_error rooms (n_cur st + (n_seg st - 1)) with
      | None => None
      | Some r =>
        let nx := if n_seg st =? 1 then
                    if rnumber r <? cnt
                    then match nth_error rooms (n_cur st + 1) with Some x => Some (Some (Some x)) | None => None end
                    else Some (Some None)
                  else Some (next_seg st) in
        match nx with
        | None => None
        | Some nx => Some (Sched (n_cur st) (n_seg st) (tl (segs st ++ [r])) nx)
        end
      end
    else Some (Sched (n_cur st) (n_seg st - 1) (tl (segs st)) (next_seg st))
  end.
(* gcodeschedulerproblem.py 122-136, the window part of solve (without no_update) *)
Definition solve_step (rooms : list room) (goal : pos) (inside : room -> bool) (st : sched) : option sched :=
  match check_segments rooms goal inside st with
  | None => None
  | Some true => Some st
  | Some false => update_segments rooms (Sched (S (n_cur st)) (n_seg st) (segs st) (next_seg st))
  end.
(* with the above, gcodeschedulerproblem.py 122-136 *)
Fixpoint solve_steps (rooms : list room) (goal : pos) (ins : list (room -> bool)) (st : sched) : option sched :=
  match ins with
  | [] => Some st
  | i :: ins' => match solve_step rooms goal i st with Some st' => solve_steps rooms goal ins' st' | None => None end
  end.
(* gcodeschedulerproblem.py 739-742: the rooms handed to the local problem *)
Definition local_rooms (rooms : list room) (st : sched) : list room :=
  slice rooms (n_cur st) (n_cur st + n_seg st).
(* gcodeschedulerproblem.py 165-172, stop_criterium; arrived is the answer of the
   local problem *)
Definition stop_criterium (goal : pos) (arrived : bool) (st : sched) : option bool :=
  match segs st with
  | [] => None
  | s0 :: _ => Some (same_pos (rend s0) goal && arrived)
  end.
