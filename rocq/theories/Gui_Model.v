(** The graphical interface in which a user draws an environment
    (omgtools/gui/gui.py) and the obstacles of an svg figure
    (omgtools/gui/svg_reader.py).

    Simplifications.  Widgets are not modelled: an event carries the pixel that
    is clicked and what the entry fields hold.  The canvas is the list of its
    items above the grid in stacking order (tk draws a new item on top and
    find_all lists from bottom to top), each with its bounding box.  Pixels of
    events are integers.  Velocity and bounce are carried along and left out.
    Reals replace floats. *)
From Coq Require Import Reals ZArith List Bool.
From Verif Require Import Svg_Model.
Import ListNotations.
Local Open Scope R_scope.

(* used by accepted, gui.py 223-228, 243-246 *)
Inductive shape : Type :=
| Rect (w h : R)
| Circ (r : R).

(* an entry of self.obstacles: shape, position in meter, canvas item; used by hit, gui.py 259-276 *)
Record obs : Type := { o_shape : shape; o_pos : pt; o_var : nat }.

(* x1 y1 x2 y2; used by box_of, gui.py 230-232, 248, 592-593 *)
Definition box : Type := (R * R * R * R)%type.

(* used by gui_init, gui.py 27-66 *)
Record gui : Type := {
  m2p : R;                 (* meter_to_pixel *)
  px : R; py : R;          (* position, pixels *)
  wpx : Z; hpx : Z;        (* frame_width_px, frame_height_px *)
  wm : R; hm : R;          (* frame_width_m, frame_height_m *)
  cw : Z; ch : Z;          (* cell_width_px, cell_height_px *)
  obstacles : list obs;
  items : list (nat * box);
  next : nat;              (* number of the next canvas item *)
  sel : option nat;        (* selected_obstacle *)
  clicks : list pt         (* clicked_positions *)
}.

(* gui.py 55-56, 188-189: int(np.ceil(size*1./cells)) *)
Definition cell (size n : Z) : Z := (- ((- size) / n))%Z.

(* gui.py 44-45, 179-180: int(width*meter_to_pixel), for positive sizes *)
Definition frame_px (w m : R) : Z := Int_part (w * m).

(* gui.py 27-66 *)
Definition gui_init (m w h : R) (posx posy : R) (nx ny : Z) : gui :=
  {| m2p := m; px := posx * m; py := posy * m; wpx := frame_px w m; hpx := frame_px h m;
     wm := w; hm := h; cw := cell (frame_px w m) nx; ch := cell (frame_px h m) ny;
     obstacles := []; items := []; next := 0; sel := None; clicks := [] |}.

(* gui.py 57-58 and 190-191: columns and rows of the grid *)
Definition grid_init (nx ny : Z) : Z * Z := (ny, nx).
(* with the above, gui.py 57-58 and 190-191 *)
Definition grid_reinit (nx ny : Z) : Z * Z := (nx, ny).

(* gui.py 198-207: right and bottom border of the grid *)
Definition grid_extent (g : gui) (cr : Z * Z) : Z * Z := ((fst cr * cw g)%Z, (snd cr * ch g)%Z).

(* gui.py 353-359: round is python's, half to even *)
Definition round_div (p c : Z) : Z :=
  let q := (p / c)%Z in
  let r := (p mod c)%Z in
  if (2 * r <? c)%Z then q else if (c <? 2 * r)%Z then (q + 1)%Z else if Z.even q then q else (q + 1)%Z.
(* with the above, gui.py 353-359 *)
Definition snap (p c : Z) : Z := (c * round_div p c)%Z.
(* with the above, gui.py 353-359 *)
Definition snap_to_grid (g : gui) (p : Z * Z) : pt := (IZR (snap (fst p) (cw g)), IZR (snap (snd p) (ch g))).

(* gui.py 596-611 *)
Definition pixel_to_world (g : gui) (p : pt) : pt :=
  (fst p / m2p g, (py g + IZR (hpx g) - snd p) / m2p g + py g / m2p g).
(* gui.py 613-626 *)
Definition world_to_pixel (g : gui) (p : pt) : pt :=
  (fst p * m2p g, - snd p * m2p g + py g + (py g + IZR (hpx g))).

(* bounding box that is drawn, gui.py 230-232, 248, 592-593: centre and half sizes in pixels *)
Definition box_of (c : pt) (hw hh : R) : box := (fst c - hw, snd c - hh, fst c + hw, snd c + hh).
(* with the above, gui.py 230-232, 248, 592-593 *)
Definition half (m : R) (s : shape) : pt :=
  match s with Rect w h => (w * m * (1/2), h * m * (1/2)) | Circ r => (r * m, r * m) end.

(* used by make, gui.py 211-218, 229-255 *)
Definition set_obstacles (g : gui) (o : list obs) (it : list (nat * box)) (n : nat) (s : option nat) : gui :=
  {| m2p := m2p g; px := px g; py := py g; wpx := wpx g; hpx := hpx g; wm := wm g; hm := hm g; cw := cw g; ch := ch g;
     obstacles := o; items := it; next := n; sel := s; clicks := clicks g |}.

(* gui.py 223-228, 243-246: the sizes that are accepted; (w or h) is w unless w is zero *)
Definition accepted (g : gui) (s : shape) : bool :=
  match s with
  | Rect w h => rltb 0 w && rltb 0 h && rltb (w * m2p g) (IZR (wpx g)) && rltb (h * m2p g) (IZR (hpx g))
  | Circ r => rltb 0 r && rltb (r * m2p g) (IZR (if (wpx g =? 0)%Z then hpx g else wpx g))
  end.

(* gui.py 211-218, 229-255: a new obstacle *)
Definition make (g : gui) (p : Z * Z) (s : shape) : gui :=
  let snapped := snap_to_grid g p in
  let pos := pixel_to_world g (fst snapped + px g, snd snapped + py g) in
  if accepted g s then
    set_obstacles g (obstacles g ++ [{| o_shape := s; o_pos := pos; o_var := next g |}])
      (items g ++ [(next g, box_of snapped (fst (half (m2p g) s)) (snd (half (m2p g) s)))]) (S (next g)) (sel g)
  else g.

(* used by hit, gui.py 259-276 *)
Definition rleb (a b : R) : bool := if Rle_dec a b then true else false.

(* gui.py 259-276: is the point in the obstacle?  geometry.py 23-31 and 169-191.
   For a rectangle the whole width and height are taken to each side. *)
Definition hit (p : pt) (o : obs) : bool :=
  match o_shape o with
  | Circ r => rleb (dist p (o_pos o)) r
  | Rect w h =>
      rleb (fst (o_pos o) - w) (fst p) && rleb (fst p) (fst (o_pos o) + w) &&
      rleb (snd (o_pos o) - h) (snd p) && rleb (snd p) (snd (o_pos o) + h)
  end.

(* gui.py 257-283: the first obstacle that is hit; without obstacles nothing changes *)
Fixpoint select_loop (p : pt) (l : list obs) (s : option nat) : option nat :=
  match l with
  | [] => s
  | o :: l => if hit p o then Some (o_var o) else select_loop p l None
  end.
(* with the above, gui.py 257-283 *)
Definition select (g : gui) (p : Z * Z) : gui :=
  let snapped := snap_to_grid g p in
  let pos := pixel_to_world g (fst snapped + px g, snd snapped + py g) in
  set_obstacles g (obstacles g) (items g) (next g) (select_loop pos (obstacles g) (sel g)).

(* used by remove, gui.py 285-309 *)
Fixpoint remove_first {A} (f : A -> bool) (l : list A) : list A :=
  match l with
  | [] => []
  | a :: l => if f a then l else a :: remove_first f l
  end.

(* gui.py 285-309 *)
Definition remove (g : gui) : gui :=
  match sel g with
  | Some v =>
      set_obstacles g (remove_first (fun o => Nat.eqb v (o_var o)) (obstacles g))
        (filter (fun it => negb (Nat.eqb (fst it) v)) (items g)) (next g) None
  | None =>
      match obstacles g with
      | [] => g
      | _ => set_obstacles g (removelast (obstacles g)) (removelast (items g)) (next g) None
      end
  end.

(* used by step_px, gui.py 327-346 *)
Inductive dir : Type := Up | Down | Left | Right.

(* gui.py 327-346: step in pixels *)
Definition step_px (g : gui) (d : dir) : pt :=
  match d with
  | Up => (0, - IZR (ch g))
  | Down => (0, IZR (ch g))
  | Left => (- IZR (cw g), 0)
  | Right => (IZR (cw g), 0)
  end.

(* used by move, gui.py 311-351 *)
Definition shift_box (b : box) (d : pt) : box :=
  let '(x1, y1, x2, y2) := b in (x1 + fst d, y1 + snd d, x2 + fst d, y2 + snd d).

(* used by move, gui.py 311-351 *)
Fixpoint update_first {A} (f : A -> bool) (u : A -> A) (l : list A) : list A :=
  match l with
  | [] => []
  | a :: l => if f a then u a :: l else a :: update_first f u l
  end.

(* gui.py 311-351; without obstacles self.obstacles[-1] fails, a selected item
   that is no longer there leaves obs unbound *)
Definition move (g : gui) (d : dir) : res gui :=
  bind (match sel g with
        | Some v => Ok v
        | None => match rev (obstacles g) with [] => IndexError | o :: _ => Ok (o_var o) end
        end) (fun v =>
  if existsb (fun o => Nat.eqb (o_var o) v) (obstacles g) then
    Ok (set_obstacles g
      (update_first (fun o => Nat.eqb (o_var o) v)
         (fun o => {| o_shape := o_shape o; o_pos := pixel_to_world g (padd (world_to_pixel g (o_pos o)) (step_px g d)); o_var := o_var o |})
         (obstacles g))
      (map (fun it => if Nat.eqb (fst it) v then (fst it, shift_box (snd it) (step_px g d)) else it) (items g))
      (next g) (sel g))
  else NameError).

(* gui.py 361-372: the right mouse button *)
Definition click (g : gui) (p : Z * Z) : gui :=
  let c := pixel_to_world g (IZR (fst p), IZR (snd p)) in
  let l := clicks g ++ [c] in
  let l := if (2 <? length l)%nat then [nth 1 l (0, 0); nth 2 l (0, 0)] else l in
  {| m2p := m2p g; px := px g; py := py g; wpx := wpx g; hpx := hpx g; wm := wm g; hm := hm g; cw := cw g; ch := ch g;
     obstacles := obstacles g; items := items g; next := next g; sel := sel g; clicks := l |}.

(* with the above, gui.py 361-372 *)
Inductive event : Type :=
| Make (p : Z * Z) (s : shape)
| Select (p : Z * Z)
| Remove
| Move (d : dir)
| Click (p : Z * Z).

(* with the above, gui.py 361-372 *)
Definition gui_step (g : gui) (ev : event) : res gui :=
  match ev with
  | Make p s => Ok (make g p s)
  | Select p => Ok (select g p)
  | Remove => Ok (remove g)
  | Move d => move g d
  | Click p => Ok (click g p)
  end.

(* with the above, gui.py 361-372 *)
Fixpoint gui_run (g : gui) (l : list event) : res gui :=
  match l with
  | [] => Ok g
  | ev :: l => bind (gui_step g ev) (fun g => gui_run g l)
  end.

(* gui.py 374-397: centre and size of the room and the obstacles; None when
   start and goal are not chosen *)
Definition build_environment (g : gui) : option (pt * (R * R) * list (shape * pt)) :=
  if Nat.eqb (length (clicks g)) 2 then
    Some ((px g * 1 / m2p g + wm g * (1/2), py g * 1 / m2p g + hm g * (1/2)), (wm g, hm g),
          map (fun o => (o_shape o, o_pos o)) (obstacles g))
  else None.

(* gui.py 570-590 *)
Definition clamp (lo hi margin x : R) : R :=
  if rleb x lo then lo + 101/100 * margin else if rleb hi x then hi - 101/100 * margin else x.
(* with the above, gui.py 570-590 *)
Definition clicked_positions (g : gui) (margin : option R) : list pt :=
  match margin with
  | None => clicks g
  | Some mg => map (fun c => (clamp 0 (wm g) mg (fst c), clamp 0 (hm g) mg (snd c))) (clicks g)
  end.

(* gui.py 440-476: the picture that is drawn for loaded obstacles; save and
   load keep the list itself *)
Definition load_box (g : gui) (o : obs) : box :=
  box_of (world_to_pixel g (o_pos o)) (fst (half (m2p g) (o_shape o))) (snd (half (m2p g) (o_shape o))).

(* ---- obstacles of an svg figure ------------------------------------------ *)

(* svg_reader.py 260-284: the translation of the figure; without one it is the
   list [0, 0].  np.array(map(eval, ...)[0]) needs python 2. *)
Inductive transform : Type :=
| TNone
| TArray (tr : pt).

(* a list += a list is longer, a list += an array is the sum; used by rect_obstacle, svg_reader.py 122-133 *)
Definition plus_transform (l : list R) (tr : transform) : list R :=
  match tr with
  | TNone => l ++ [0; 0]
  | TArray t => map (fun p => fst p + snd p) (combine l [fst t; snd t])
  end.

(* an obstacle in pixels; the position is a list; used by rect_obstacle, svg_reader.py 122-133 *)
Record sobs : Type := { s_shape : shape; s_pos : list R }.

(* svg_reader.py 122-133 *)
Definition rect_obstacle (tr : transform) (x y w h : R) : sobs :=
  {| s_shape := Rect w h; s_pos := plus_transform [x + w * (1/2); y + h * (1/2)] tr |}.
(* svg_reader.py 135-143 *)
Definition circle_obstacle (tr : transform) (cx cy r : R) : sobs :=
  {| s_shape := Circ r; s_pos := plus_transform [cx; cy] tr |}.

(* python 2's cmp(x, 0); used by line_obstacle, svg_reader.py 222-258 *)
Definition cmp0 (x : R) : R := if rltb x 0 then -1 else if rltb 0 x then 1 else 0.

(* svg_reader.py 222-258 (line) and 195-220 (one stretch of a polyline), with
   the translation already added *)
Definition line_obstacle (a b : pt) (stroke : R) : res sobs :=
  if reqb (fst a) (fst b) then
    let h := snd b - snd a in
    let w := cmp0 h * stroke in
    Ok {| s_shape := Rect stroke (Rabs h); s_pos := [fst a + w * (1/2); snd a + h * (1/2)] |}
  else if reqb (snd a) (snd b) then
    let w := fst b - fst a in
    let h := cmp0 w * stroke in
    Ok {| s_shape := Rect (Rabs w) stroke; s_pos := [fst a + w * (1/2); snd a + h * (1/2)] |}
  else RuntimeError.

(* svg_reader.py 182-220: all stretches *)
Fixpoint polyline_obstacles (l : list pt) (stroke : R) : res (list sobs) :=
  match l with
  | a :: ((b :: _) as l') =>
      bind (line_obstacle a b stroke) (fun o => bind (polyline_obstacles l' stroke) (fun r => Ok (o :: r)))
  | _ => Ok []
  end.

(* gui.py 409-426: pixels to meters; u, v = pixel needs two numbers *)
Definition add_obstacle (g : gui) (o : sobs) : res (shape * pt) :=
  match s_pos o with
  | [u; v] =>
      Ok (match s_shape o with
          | Rect w h => Rect (w * 1 / m2p g) (h * 1 / m2p g)
          | Circ r => Circ (r * 1 / m2p g)
          end, pixel_to_world g (u, v))
  | _ => ValueError
  end.
