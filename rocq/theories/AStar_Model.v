(* Model of omgtools/problems/globalplanner.py, class AStarPlanner
   (lines 48-249) and class Node (261-282).

   Node objects live in a heap (a list; the address is the index) because the
   code mutates them and compares them by identity.  Costs are exact rationals.
   The diagonal cost (88-89) is kept as a parameter of the planner: the code
   computes cell_width/cos(arctan(cell_height/cell_width)), a float. *)
From Coq Require Import ZArith QArith List Bool Lia.
Import ListNotations.
From Verif Require Import Grid_Model.
Open Scope Z_scope.

(* globalplanner.py 261-267 *)
Record node := mkN { npos : pos; npar : option nat; ng : Q; nh : Q; nf : Q }.

(* attributes of the planner used by the search (globalplanner.py 50-89) *)
Record planner := mkP { pgrid : grid; pdiag : Q; pgoal : pos }.

(* heap, current_node, open_list, closed_list (globalplanner.py 157-159) *)
Record st := mkSt { heap : list node; cur : nat; opn : list nat; cls : list nat }.

(* with the above, globalplanner.py 157-159 *)
Definition nullnode : node := mkN (0, 0) None 0 0 0.
(* with the above, globalplanner.py 157-159 *)
Definition getn (h : list node) (i : nat) : node := nth i h nullnode.

(* used by relax, globalplanner.py 167-194 *)
Fixpoint upd (h : list node) (i : nat) (n : node) : list node :=
  match h, i with
  | [], _ => []
  | _ :: h', O => n :: h'
  | m :: h', S i' => m :: upd h' i' n
  end.

(* with the above, globalplanner.py 157-159 *)
Inductive err :=
| ENoNeighbors        (* RuntimeError 165 *)
| ENoPath             (* RuntimeError 211 *)
| EValue              (* ValueError 103 *)
| EAttribute          (* AttributeError on None (204 after get_lowest returned None, 234) *)
| EFuel.              (* not a Python outcome: the model ran out of fuel *)

(* used by relax, globalplanner.py 167-194 *)
Inductive res (A : Type) := Ok (a : A) | Err (e : err).
Arguments Ok {A}. Arguments Err {A}.

(* globalplanner.py 97-112: the movement cost from parent position to node position *)
Definition move_cost (pl : planner) (par p : pos) : option Q :=
  if (fst p =? fst par) && (snd p =? snd par) then None
  else if negb (fst p =? fst par) && (snd p =? snd par) then Some (cw (pgrid pl))
  else if (fst p =? fst par) && negb (snd p =? snd par) then Some (ch (pgrid pl))
  else Some (pdiag pl).

(* globalplanner.py 116-122 *)
Definition h_cost (pl : planner) (p : pos) : Q :=
  (inject_Z (Z.abs (fst (pgoal pl) - fst p)) * cw (pgrid pl)
   + inject_Z (Z.abs (snd (pgoal pl) - snd p)) * ch (pgrid pl))%Q.

(* globalplanner.py 178-184 and 188-193: a node at p with parent par and its costs *)
Definition make_node (pl : planner) (h : list node) (par : nat) (p : pos) : option node :=
  match move_cost pl (npos (getn h par)) p with
  | None => None
  | Some c => let g := (c + ng (getn h par))%Q in
              let hc := h_cost pl p in
              Some (mkN p (Some par) g hc (g + hc)%Q)
  end.

(* globalplanner.py 167-194: body of the loop over the neighbours *)
Definition relax (pl : planner) (s : st) (p : pos) : res st :=
  let h := heap s in
  let in_closed := existsb (fun i => pos_eqb p (npos (getn h i))) (cls s) in
  match find (fun i => pos_eqb p (npos (getn h i))) (opn s) with
  | Some i =>
      match make_node pl h (cur s) p with
      | None => Err EValue
      | Some n => if Qle_bool (ng n) (ng (getn h i))
                  then Ok (mkSt (upd h i n) (cur s) (opn s) (cls s))
                  else Ok s
      end
  | None =>
      if in_closed then Ok s
      else match make_node pl h (cur s) p with
           | None => Err EValue
           | Some n => Ok (mkSt (h ++ [n]) (cur s) (opn s ++ [length h]) (cls s))
           end
  end.

(* used by iter, globalplanner.py 163-212 *)
Fixpoint relax_all (pl : planner) (s : st) (ps : list pos) : res st :=
  match ps with
  | [] => Ok s
  | p :: ps' => match relax pl s p with
                | Ok s' => relax_all pl s' ps'
                | Err e => Err e
                end
  end.

(* globalplanner.py 127-135: get_lowest_f_cost_node; None is Python's None and infinity *)
Definition lowest_step (h : list node) (best : option nat) (i : nat) : option nat :=
  match best with
  | None => Some i
  | Some b => if Qltb (nf (getn h i)) (nf (getn h b)) then Some i else best
  end.
(* with the above, globalplanner.py 127-135 *)
Definition get_lowest (h : list node) (l : list nat) : option nat :=
  fold_left (lowest_step h) l None.

(* globalplanner.py 137-141 *)
Fixpoint remove_first (i : nat) (l : list nat) : list nat :=
  match l with
  | [] => []
  | j :: l' => if Nat.eqb j i then l' else j :: remove_first i l'
  end.

(* used by iter, globalplanner.py 163-212 *)
Definition mem_pos (p : pos) (l : list pos) : bool := existsb (pos_eqb p) l.

(* globalplanner.py 163-212: one iteration of the main loop, when current_node is not the goal *)
Definition iter (pl : planner) (s : st) : res st :=
  let nb := get_neighbors (pgrid pl) (npos (getn (heap s) (cur s))) in
  match nb with
  | [] => Err ENoNeighbors
  | _ :: _ =>
    match relax_all pl s nb with
    | Err e => Err e
    | Ok s1 =>
      match get_lowest (heap s1) (opn s1) with
      | None => Err EAttribute
      | Some c =>
          let o := remove_first c (opn s1) in
          let k := cls s1 ++ [c] in
          let s2 := mkSt (heap s1) c o k in
          match o with
          | _ :: _ => Ok s2
          | [] =>
              let nb2 := get_neighbors (pgrid pl) (npos (getn (heap s1) c)) in
              let kp := map (fun i => npos (getn (heap s1) i)) k in
              match nb2 with
              | [] => Err ENoPath
              | _ :: _ => if forallb (fun q => mem_pos q kp) nb2 then Err ENoPath else Ok s2
              end
          end
      end
    end
  end.

(* globalplanner.py 161-212: while current_node.pos != goal *)
Fixpoint loop (fuel : nat) (pl : planner) (s : st) : res st :=
  if pos_eqb (npos (getn (heap s) (cur s))) (pgoal pl) then Ok s
  else match fuel with
       | O => Err EFuel
       | S f => match iter pl s with Ok s' => loop f pl s' | Err e => Err e end
       end.

(* globalplanner.py 229-237: closed_list_to_path, following parents until closed_list[0] *)
Fixpoint walk_back (fuel : nat) (h : list node) (first i : nat) : res (list nat) :=
  if Nat.eqb i first then Ok [i]
  else match fuel with
       | O => Err EFuel
       | S f => match npar (getn h i) with
                | None => Err EAttribute
                | Some j => match walk_back f h first j with
                            | Ok l => Ok (i :: l)
                            | Err e => Err e
                            end
                end
       end.

(* used by search, globalplanner.py 156-222 *)
Definition closed_list_to_path (s : st) : res (list nat) :=
  walk_back (length (heap s)) (heap s) (hd O (cls s)) (last (cls s) O).

(* globalplanner.py 157-159 *)
Definition init (start : pos) : st := mkSt [mkN start None 0 0 0] O [] [O].

(* used by search, globalplanner.py 156-222 *)
Definition fuel_of (g : grid) : nat := S (Z.to_nat (nx g * ny g)).

(* globalplanner.py 156-222: search from a start cell; the result is the list of cells from
   start to goal *)
Definition search (pl : planner) (start : pos) : res (list pos) :=
  match loop (fuel_of (pgrid pl)) pl (init start) with
  | Err e => Err e
  | Ok s => match closed_list_to_path s with
            | Err e => Err e
            | Ok l => Ok (rev (map (fun i => npos (getn (heap s) i)) l))
            end
  end.

(* globalplanner.py 147-227: get_path(start, goal) with points in world coordinates: both are
   snapped to the grid, the cells of the path become waypoints *)
Definition get_path (g : grid) (dc : Q) (start goal : Q * Q) : res (list (Q * Q)) :=
  let s := move_to_gridpoint g (fst start) (snd start) in
  let e := move_to_gridpoint g (fst goal) (snd goal) in
  match search (mkP g dc e) s with
  | Err e => Err e
  | Ok l => Ok (map (waypoint g) l)
  end.
