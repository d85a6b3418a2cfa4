(* Notions in which the properties of the scheduler are stated. *)
From Coq Require Import QArith Qabs List Bool Arith.
From Verif Require Import Frame_Model Frame_Spec Sched_Model.
Import ListNotations.
Open Scope Q_scope.

(* the scheduler looks at exactly n_frames frames, at least one, at most N *)
Definition window (N : nat) (g : sched) : Prop :=
  length (g_frames g) = g_n g /\ (1 <= g_n g <= N)%nat.

(* the local problem has one room for every frame, with the same limits *)
Definition rooms_match (g : sched) : Prop :=
  exists rooms, g_rooms g = Some rooms /\ map r_lim rooms = map lims (g_frames g).

Definition same_elements (a b : list nat) : Prop := forall x, In x a <-> In x b.

(* every room contains exactly the obstacles listed in its frame *)
Definition obstacles_match (g : sched) : Prop :=
  exists rooms, g_rooms g = Some rooms /\
    Forall2 (fun r f => same_elements (r_obs r) (map o_id (f_stationary (sf f)) ++ s_moving f))
            rooms (g_frames g).

(* every frame starts where the one before it ends *)
Definition follows (a b : sframe) : Prop := f_endpoint (sf a) = Some (f_start (sf b)).
Fixpoint chain (fs : list sframe) : Prop :=
  match fs with
  | a :: ((b :: _) as rest) => follows a b /\ chain rest
  | _ => True
  end.
(* the frame ends in the point p *)
Definition ends_in (f : sframe) (p : pt) : Prop :=
  exists e, f_endpoint (sf f) = Some e /\ pt_eq e p.

(* the obstacles that move through the rectangle l within time t, looked at every
   ts: those of which a followed point lies in l at a multiple of ts *)
Definition moves_through (l : lim) (ts t : Q) (o : obstacle) : Prop :=
  ~ pt_eq (o_vel o) (0, 0) /\
  exists c (k : Z), In c (tracked o) /\ (0 <= k <= n_samples t ts)%Z /\
    contains l (at_time c (o_vel o) (inject_Z k * ts)).

(* the vehicle is in the rectangle, more than d away from its border *)
Definition deep (l : lim) (d : Q) (p : pt) : Prop :=
  xlo l + d < fst p < xhi l - d /\ ylo l + d < snd p < yhi l - d.
(* x is the identity of an obstacle that moves through l within time t *)
Definition passing (l : lim) (ts t : Q) (obs : list obstacle) (x : nat) : Prop :=
  exists o, In o obs /\ o_id o = x /\ moves_through l ts t o.
(* the remaining motion time of frame k *)
Definition remaining (s : scfg) (T : nat -> Q) (k : nat) : Q :=
  if s_freeT s then T k else w_horizon (s_world s).
(* all obstacles can be followed: rectangles with orientation 0 and circles *)
Definition followed (obs : list obstacle) : Prop := forall o, In o obs -> plain (o_shape o).
(* a function on rationals *)
Definition respects (f : Q -> Q) : Prop := forall a b, a == b -> f a == f b.
(* length of the way along the waypoints, in the sum of both directions *)
Fixpoint way (ps : list pt) : Q :=
  match ps with
  | p :: ((q :: _) as rest) => Qabs (fst q - fst p) + Qabs (snd q - snd p) + way rest
  | _ => 0
  end.
(* at half the maximum speed t is the time for the straight line from the first to
   the last one of the waypoints *)
Definition straight (s : scfg) (ws : list (option pt)) (t : Q) : Prop :=
  exists ps, ws = map Some ps /\ forall p, hd_error ps = Some p ->
    t * (w_vmax (s_world s) * (1 # 2)) == w_sqrt (s_world s) (sq_dist p (last ps p)).
(* after the goal the path does not leave it again *)
Definition goal_ends (path : list pt) (goal : pt) : Prop :=
  forall a g b p, path = a ++ g :: b -> pt_eq g goal -> In p b -> pt_eq p goal.
(* what the local problem has to reach: without a heading the last waypoint of the
   frame; with one the pose of the goal, or the last waypoint in the direction from
   the waypoint before it to the second one of the next frame, if that is known *)
Definition aims (s : scfg) (next : option (option sframe)) (f : sframe) (tg : target) : Prop :=
  match tg with
  | AtPoint p => w_dubins (s_world s) = false /\ exists ws, f_waypoints (sf f) = ws ++ [Some p]
  | AtGoal => w_dubins (s_world s) = true /\
      exists ws p, f_waypoints (sf f) = ws ++ [Some p] /\ pt_eq p (w_goal (s_world s))
  | AtPose p d => w_dubins (s_world s) = true /\ ~ pt_eq p (w_goal (s_world s)) /\
      exists ws p1 p2, f_waypoints (sf f) = ws ++ [Some p1; Some p] /\
        d = (fst p2 - fst p1, snd p2 - snd p1) /\
        match next with
        | None => p2 = p
        | Some None => False
        | Some (Some nf) => exists w rest, f_waypoints (sf nf) = w :: Some p2 :: rest
        end
  end.
