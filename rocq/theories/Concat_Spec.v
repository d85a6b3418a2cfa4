(** Vocabulary for the concatenation of segments. *)
From Coq Require Import Reals List Arith ZArith.
From Verif Require Import Spline_Model Spline_Spec Splop_Spec Multi_Spec Concat_Model.
Import ListNotations.
Local Open Scope R_scope.

(** the knots of two parts put one after the other: all but degree+1-n of the
    end knots of the first part stay, the start knots of the second part go *)
Definition joined_knots (p n : nat) (ks : list R) (s : bspline) (T : R) : list R :=
  firstn (length ks - (p + 1) + n) ks
  ++ map (fun k => k * T + last ks 0) (skipn (p + 1) (knots (sbasis s))).

(** while the segments are appended one by one, no evaluation site of the
    linear system is the joint itself *)
Fixpoint clear_joints (p n : nat) (ks : list R) (rest : list (bspline * R)) : Prop :=
  match rest with
  | [] => True
  | (s, T) :: rest' =>
    ~ In (last ks 0) (sites (mkB (joined_knots p n ks s T) p)) /\
    clear_joints p n (joined_knots p n ks s T) rest'
  end.
Definition clear_segments (p n : nat) (l : list (bspline * R)) : Prop :=
  match l with
  | [] => True
  | (s, T) :: rest => clear_joints p n (map (fun k => k * T + 0) (knots (sbasis s))) rest
  end.

(** the number of knots kept at a joint: the one asked for, or the one found at
    the first joint of the first signal; it is used for every joint and signal *)
Definition used_insert (n : option Z) (segs : list (list bspline)) (Ts : list R) : option Z :=
  match n with
  | Some m => Some m
  | None =>
    match segs, Ts with
    | (s1 :: _) :: (s2 :: _) :: _, T1 :: T2 :: _ => Some (computed_insert (scale s1 T1 0) s2 T2 T1)
    | _, _ => None
    end
  end.

(** a spline of degree p, clamped on [0, 1] *)
Definition proper (p : nat) (s : bspline) : Prop :=
  clamped_on (sbasis s) 0 1 /\ sized s /\ degree (sbasis s) = p.

(** every segment consists of k splines of degree p, clamped on [0, 1] *)
Definition proper_segments (p k : nat) (segs : list (list bspline)) : Prop :=
  Forall (fun sg => length sg = k /\ Forall (proper p) sg) segs.

(** the distances of the knots nearest to a joint, in seconds, for cubic splines *)
Definition before_joint (q : bspline * R) : R :=
  (1 - nth (length (knots (sbasis (fst q))) - 5) (knots (sbasis (fst q))) 0) * snd q.
Definition after_joint (q : bspline * R) : R := nth 4 (knots (sbasis (fst q))) 0 * snd q.
(** at no joint they are the same on both sides *)
Fixpoint uneven (l : list (bspline * R)) : Prop :=
  match l with
  | q1 :: ((q2 :: _) as r) => before_joint q1 <> after_joint q2 /\ uneven r
  | _ => True
  end.
