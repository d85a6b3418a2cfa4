(** What the drawing of the user means, independently of the interface. *)
From Coq Require Import Reals ZArith List.
From Verif Require Import Svg_Model Gui_Model.
Import ListNotations.
Local Open Scope R_scope.

(* the canvas as a map: its left border is at world x = px/m, its bottom, H
   pixels below the top, at world y = py/m *)
Definition canvas_point (g : gui) (p : pt) : pt :=
  (px g / m2p g + fst p / m2p g, py g / m2p g + (IZR (hpx g) - snd p) / m2p g).

(* half width and half height of a shape, in meters *)
Definition reach (s : shape) : pt := match s with Rect w h => (w / 2, h / 2) | Circ r => (r, r) end.

(* a box on the canvas shows an obstacle: its lower left and upper right
   corners are those of the bounding box of the obstacle *)
Definition box_shows (g : gui) (b : box) (o : obs) : Prop :=
  let '(x1, y1, x2, y2) := b in
  canvas_point g (x1, y2) = psub (o_pos o) (reach (o_shape o)) /\
  canvas_point g (x2, y1) = padd (o_pos o) (reach (o_shape o)).

(* the canvas shows the obstacles, one item each, in the same order *)
Definition pictured (g : gui) : Prop :=
  Forall2 (fun it o => fst it = o_var o /\ box_shows g (snd it) o) (items g) (obstacles g) /\
  NoDup (map o_var (obstacles g)).

(* point in a closed rectangle about c *)
Definition in_rect (c : pt) (w h : R) (p : pt) : Prop :=
  Rabs (fst p - fst c) <= w / 2 /\ Rabs (snd p - snd c) <= h / 2.
Definition in_disc (c : pt) (r : R) (p : pt) : Prop :=
  (fst p - fst c)² + (snd p - snd c)² <= r².
Definition in_shape (s : shape) (c p : pt) : Prop :=
  match s with Rect w h => in_rect c w h p | Circ r => 0 <= r /\ in_disc c r p end.

(* the pixels a rectangle, a circle and the stroke of a horizontal or vertical
   line cover in a figure (y down) *)
Definition rect_pixels (x y w h : R) (p : pt) : Prop := x <= fst p <= x + w /\ y <= snd p <= y + h.
Definition stroke_pixels (a b : pt) (s : R) (p : pt) : Prop :=
  (fst a = fst b /\ Rabs (fst p - fst a) <= s / 2 /\ Rmin (snd a) (snd b) <= snd p <= Rmax (snd a) (snd b)) \/
  (snd a = snd b /\ Rabs (snd p - snd a) <= s / 2 /\ Rmin (fst a) (fst b) <= fst p <= Rmax (fst a) (fst b)).

(* positions of the last two right clicks *)
Definition last2 {A} (l : list A) : list A := skipn (length l - 2) l.
Definition right_clicks (l : list event) : list (Z * Z) :=
  flat_map (fun ev => match ev with Click p => [p] | _ => [] end) l.
