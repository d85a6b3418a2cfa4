(** Bouncing obstacles and the simulation of the whole environment.
    Source: omgtools/environment/environment.py 190-331. *)
From Coq Require Import Reals List Bool.
From Verif Require Import Geom_Model Obst_Model.
Import ListNotations.
Local Open Scope R_scope.

(** environment.py 209-260 and 274-325, the two copies of the reflection:
    [hit] is the test (overlap with one other obstacle, or outside the room)
    as a function of the position; None: the test raises.  The obstacle is
    shifted for the second test and put back afterwards. *)
Definition reflect (hit : pt -> option bool) (pos vel : pt) : option pt :=
  match hit pos with
  | None => None
  | Some false => Some vel
  | Some true =>
    let '(vx, vy) := vel in
    if Reqb0 vx || Reqb0 vy then Some (- vx, - vy)
    else
      let go dx dy free occupied :=
        match hit (fst pos + dx, snd pos + dy) with
        | None => None
        | Some false => Some free
        | Some true => Some occupied
        end in
      if Rltb 0 vx && Rltb 0 vy then go 0.15 (-0.15) (vx, - vy) (- vx, vy)
      else if Rltb vx 0 && Rltb 0 vy then go (-0.15) (-0.15) (vx, - vy) (- vx, vy)
      else if Rltb 0 vx && Rltb vy 0 then go (-0.15) (-0.15) (- vx, vy) (vx, - vy)
      else go 0.15 (-0.15) (- vx, vy) (vx, - vy)
  end.

(** one obstacle: shape, state per axis, scheduled jumps per axis, current
    time, and whether it bounces (environment.py 193-195) *)
Record obst := mkOb { bshape : oshape2; bxst : ost; byst : ost;
  bxev : list event; byev : list event; btime : R; bbounce : bool }.
(* with the above, environment.py 193-195 *)
Definition bpos (o : obst) : pt := (ox (bxst o), ox (byst o)).
(* with the above, environment.py 193-195 *)
Definition bvel (o : obst) : pt := (ov (bxst o), ov (byst o)).
(* with the above, environment.py 193-195 *)
Definition with_vel (o : obst) (v : pt) : obst :=
  mkOb (bshape o) (mkO (ox (bxst o)) (fst v) (oa (bxst o)))
       (mkO (ox (byst o)) (snd v) (oa (byst o))) (bxev o) (byev o) (btime o) (bbounce o).

(** environment.py 199-264: every other obstacle in turn.  [vel] is a view of
    the last column of the recorded velocities, so the reflection off one
    obstacle is the velocity tested against the next *)
Fixpoint bounce_others (s : oshape2) (pos : pt) (others : list obst) (vel : pt) : option pt :=
  match others with
  | [] => Some vel
  | o :: rest =>
      match reflect (fun p => overlaps_with s p (bshape o) (bpos o)) pos vel with
      | None => None
      | Some v => bounce_others s pos rest v
      end
  end.

(** environment.py 193-329: [room] holds the limits of room[0] *)
Definition bounce_one (room : (R * R) * (R * R)) (rpos : pt) (others : list obst) (o : obst) : option obst :=
  if bbounce o then
    match bounce_others (bshape o) (bpos o) others (bvel o) with
    | None => None
    | Some v =>
        match reflect (fun p => Some (is_outside_of (bshape o) p room rpos)) (bpos o) v with
        | None => None
        | Some v' => Some (with_vel o v')
        end
    end
  else Some o.

(** environment.py 330: the obstacle moves for a time [d] *)
Definition advance (d : R) (o : obst) : obst :=
  mkOb (bshape o) (sample_at (bxev o) (btime o) (bxst o) (btime o + d))
       (sample_at (byev o) (btime o) (byst o) (btime o + d))
       (bxev o) (byev o) (btime o + d) (bbounce o).

(** environment.py 190-330: one obstacle after the other; those already
    handled have moved when the next one is tested *)
Fixpoint env_go (room : (R * R) * (R * R)) (rpos : pt) (d : R) (before todo : list obst) : option (list obst) :=
  match todo with
  | [] => Some before
  | o :: rest =>
      match bounce_one room rpos (before ++ rest) o with
      | None => None
      | Some o' => env_go room rpos d (before ++ [advance d o']) rest
      end
  end.
(* with the above, environment.py 190-330 *)
Definition env_simulate room rpos d obs := env_go room rpos d [] obs.
