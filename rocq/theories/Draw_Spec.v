(** What shapes look like and what is kept free, without the model's helpers. *)
From Coq Require Import Reals List.
From Verif Require Import Geom_Spec Geom_Model Draw_Model.
Import ListNotations.
Local Open Scope R_scope.

(** what filled (possibly non-convex) polygons can cover at most *)
Definition shown (polygons : list (list P2)) (x : P2) : Prop :=
  exists s, In s polygons /\ hull s x.
Definition shown3 (polygons : list (list P3)) (x : P3) : Prop :=
  exists s, In s polygons /\ hull3 s x.

(** the convex body spanned by discs (balls), given by centres and radii *)
Inductive body (cs : list (P2 * R)) : P2 -> Prop :=
| body_disc : forall c r x, In (c, r) cs -> dist c x <= r -> body cs x
| body_mix : forall s p q, 0 <= s <= 1 -> body cs p -> body cs q -> body cs (between s p q).

Definition between3 (s : R) (p q : P3) : P3 :=
  (fst (fst p) + s * (fst (fst q) - fst (fst p)),
   snd (fst p) + s * (snd (fst q) - snd (fst p)),
   snd p + s * (snd q - snd p)).
Inductive body3 (cs : list (P3 * R)) : P3 -> Prop :=
| body3_ball : forall c r x, In (c, r) cs -> dist3 c x <= r -> body3 cs x
| body3_mix : forall s p q, 0 <= s <= 1 -> body3 cs p -> body3 cs q -> body3 cs (between3 s p q).

(** turned over [th] about its own origin, then moved to [p] *)
Definition placed (p : P2) (th : R) (x : P2) : P2 := moved p (turned th x).
(** roll, pitch and yaw; then moved *)
Definition turn3 (o : R * R * R) (x : P3) : P3 :=
  turn_z (snd o) (turn_y (snd (fst o)) (turn_x (fst (fst o)) x)).
Definition placed3 (p : P3) (o : R * R * R) (x : P3) : P3 := plus3 p (turn3 o x).

(** the region between the [n] sides of a regular polygon with its vertices at
    distance [r]; side 0 is the upper one *)
Definition in_ngon (r : R) (n : nat) (x : P2) : Prop :=
  forall l : nat, (l < n)%nat ->
    sin (2 * PI * INR l / INR n) * fst x + cos (2 * PI * INR l / INR n) * snd x <= r * cos (PI / INR n).

(** the box with these faces is the smallest one around a set *)
Definition tight_box (lims : (R * R) * (R * R)) (P : P2 -> Prop) : Prop :=
  (forall x, P x -> fst (fst lims) <= fst x <= snd (fst lims) /\ fst (snd lims) <= snd x <= snd (snd lims)) /\
  (exists x, P x /\ fst x = fst (fst lims)) /\ (exists x, P x /\ fst x = snd (fst lims)) /\
  (exists x, P x /\ snd x = fst (snd lims)) /\ (exists x, P x /\ snd x = snd (snd lims)).
Definition tight_box3 (lims : P3 * P3) (P : P3 -> Prop) : Prop :=
  (forall x, P x ->
     fst (fst (fst lims)) <= fst (fst x) <= fst (fst (snd lims)) /\
     snd (fst (fst lims)) <= snd (fst x) <= snd (fst (snd lims)) /\
     snd (fst lims) <= snd x <= snd (snd lims)) /\
  (exists x, P x /\ fst (fst x) = fst (fst (fst lims))) /\ (exists x, P x /\ fst (fst x) = fst (fst (snd lims))) /\
  (exists x, P x /\ snd (fst x) = snd (fst (fst lims))) /\ (exists x, P x /\ snd (fst x) = snd (fst (snd lims))) /\
  (exists x, P x /\ snd x = snd (fst lims)) /\ (exists x, P x /\ snd x = snd (snd lims)).

(** the plane shapes a user can make, with sizes that are not negative *)
Inductive made : shape2 -> Prop :=
| made_circle : forall r, 0 <= r -> made (circle r)
| made_polyhedron : forall vs th r, 0 <= r -> made (polyhedron plain_surface vs th r)
| made_regular : forall r n th, made (regular r n th)
| made_rectangle : forall w h th, made (rectangle w h th)
| made_square : forall a th, made (square a th)
| made_beam : forall w h th, 0 <= h -> made (beam w h th)
| made_ufo : forall w h th, 0 <= w -> 0 <= h -> made (ufo w h th).
(** the solids; a plate is made of a polygon (not of a beam or a UFO) *)
Inductive made3 : shape3 -> Prop :=
| made_sphere : forall r, 0 <= r -> made3 (sphere r)
| made_prism : forall r h n o, (1 <= n)%nat -> made3 (prism r h n o)
| made_cuboid : forall w d h o, made3 (cuboid w d h o)
| made_cube : forall a o, made3 (cube a o)
| made_plate : forall vs th r height o s, 0 <= height ->
    plate (polyhedron plain_surface vs th r) height o = Some s -> made3 s.
