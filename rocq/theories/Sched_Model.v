(* Model of omgtools/problems/schedulerproblem.py, class SchedulerProblem: which
   frames the scheduler looks at, when it moves on to the next ones, and what it
   hands over to the local problem.

   The frames themselves are those of Frame_Model.  Not modelled: the solution of
   the local problem (its motion times are an input of every call of solve), the
   coefficients of the initial guesses (only their motion times are kept), the
   values set_init_spline_values and set_initial_conditions, plotting, storing
   and printing.  The global planner is a function from the current position to a
   path.  Only the first two entries of the state of the vehicle are kept.  The
   comparisons `frame_type is 'shift'` and `frame.type is 'corridor'` are taken as
   comparisons of the strings. *)
From Coq Require Import QArith Qabs ZArith List Bool Arith.
From Verif Require Import Frame_Model.
Import ListNotations.
Open Scope bool_scope.
Open Scope Q_scope.

(* the option 'frame_type', schedulerproblem.py 41-100 *)
Inductive ftype := Shift | Corridor | OtherType.

(* What the user passes as `options` (None: a key that is not given).
   o_fine is 'scale_up_fine', o_ts is 'check_moving_obs_ts'; used by sched_init, schedulerproblem.py 41-100 *)
Record options := Options {
  o_freeT : option bool; o_nframes : option nat; o_ftype : option ftype;
  o_fsize : option Q; o_mlimit : option Q; o_fine : option bool;
  o_lshape : option bool; o_ts : option Q }.

(* What the scheduler is built from.  w_planner0: the path of get_path() without
   arguments; w_planner: the path from a given start; w_sqrt: numpy's square
   root; w_dubins: the vehicle is a Dubins vehicle, otherwise a Holonomic one;
   w_vmax: vmax, or the mean of vxmax and vymax (line 590); w_horizon: the option
   horizon_time of the local problem; w_fuel: see OutOfFuel in Frame_Model; used by sched_init, schedulerproblem.py 41-100 *)
Record world := World {
  w_veh : Q; w_room_w : Q; w_room_h : Q; w_room_pos : pt;
  w_goal : pt; w_planner0 : list pt; w_planner : pt -> list pt;
  w_dubins : bool; w_vmax : Q; w_sqrt : Q -> Q; w_horizon : Q; w_fuel : nat }.

(* the settings of a scheduler, and their use of options and world; used by sched_init, schedulerproblem.py 41-100 *)
Record scfg := SCfg {
  s_world : world; s_freeT : bool; s_type : ftype;
  s_fsize : Q; s_mlimit : Q; s_fine : option bool; s_lshape : bool; s_ts : Q }.

(* A frame with the identities of the obstacles in its list moving_obstacles; used by make_corridor, frame.py 526 *)
Record sframe := SF { sf : frame; s_moving : list nat }.
(* used by l_shape, frame.py 777-875 *)
Definition lims (f : sframe) : lim := b_lim (f_border (sf f)).

(* A room of the local problem: its limits and the obstacles filled in; used by reuse_times, schedulerproblem.py 497-519 *)
Record room := Room { r_lim : lim; r_obs : list nat }.

(* The terminal condition of the vehicle: a position; a position and the
   direction (x2 - x1, y2 - y1) whose angle is appended; the overall goal; used by get_init_guess, schedulerproblem.py 481-561 *)
Inductive target := AtPoint (p : pt) | AtPose (p d : pt) | AtGoal.

(* The attributes of a scheduler.  g_next: None while the attribute next_frame
   does not exist.  g_rooms: the rooms of local_problem, None while it does not
   exist; g_solved: the local problem has a result; used by sched_init, schedulerproblem.py 41-100 *)
Record sched := Sched {
  g_frames : list sframe; g_n : nat; g_next : option (option sframe); g_cnt : nat;
  g_times : list Q; g_rooms : option (list room); g_solved : bool;
  g_target : option target; g_curr : pt }.

(* used by sched_init, schedulerproblem.py 41-100 *)
Definition opt {A} (o : option A) (d : A) : A := match o with Some a => a | None => d end.

(* schedulerproblem.py 41-100, SchedulerProblem.__init__: without options line 46
   raises (`in None`); several frames need a free end time (79-80); the defaults
   of 77, 82, 86, 88, 91, 92; the default of frame.py 47 for check_moving_obs_ts.
   The margin is 1.1 (line 64). *)
Definition sched_init (w : world) (o : option options) (curr : pt) : res (scfg * sched) :=
  match o with
  | None => Err TypeError
  | Some o =>
      let freeT := opt (o_freeT o) true in
      let n := opt (o_nframes o) 1%nat in
      let size := opt (o_fsize o) (w_room_w w * (2 # 10)) in
      if (1 <? n)%nat && negb freeT then Err ValueError
      else Ok (SCfg w freeT (opt (o_ftype o) Shift) size (opt (o_mlimit o) (size * (1 # 4)))
                    (o_fine o) (opt (o_lshape o) false) (opt (o_ts o) (1 # 2)),
               Sched [] n None 1 [] None false None curr)
  end.

(* the settings of Frame_Model for the obstacles as they are now; used by make_corridor, frame.py 526 *)
Definition fcfg (s : scfg) (obs : list obstacle) : cfg :=
  let w := s_world s in
  Cfg (w_veh w) (11 # 10) (w_room_w w) (w_room_h w) (w_room_pos w)
      (s_fsize s) (s_mlimit s) (opt (s_fine s) true) obs.

(* schedulerproblem.py 119, 441: the path with the goal behind it *)
Definition with_goal (s : scfg) (path : list pt) : list pt := path ++ [w_goal (s_world s)].

(* lines 352-354 and 397-399.  frame.py 526 reads options['scale_up_fine'] from
   self.options, where only the options of the user are. *)
Definition make_corridor (s : scfg) (obs : list obstacle) (start : pt) (path : list pt) : res sframe :=
  match s_fine s with
  | None => Err KeyError
  | Some _ =>
      bind (corridor_frame (fcfg s obs) (w_fuel (s_world s)) start path) (fun f => Ok (SF f []))
  end.

(* schedulerproblem.py 349-356 *)
Definition make_frame (s : scfg) (obs : list obstacle) (start : pt) (path : list pt) : res sframe :=
  match s_type s with
  | Shift => bind (shift_frame (fcfg s obs) start path) (fun f => Ok (SF f []))
  | Corridor => make_corridor s obs start path
  | OtherType => Err RuntimeError
  end.

(* Python's `a == b` of line 338 and 391: a None in the list, or the empty list,
   is different from any point; used by create_next_frame, schedulerproblem.py 385-407 *)
Definition is_pt (a : option pt) (b : pt) : bool :=
  match a with Some p => pt_eqb p b | None => false end.

(* waypoints[-1]; used by create_loop, schedulerproblem.py 336-362 *)
Definition last_wp (f : sframe) : res (option pt) :=
  match rev (f_waypoints (sf f)) with [] => Err IndexError | w :: _ => Ok w end.

(* schedulerproblem.py 385-407, create_next_frame.  Line 395 leaves out two of
   the positional arguments of ShiftFrame: TypeError. *)
Definition create_next_frame (s : scfg) (obs : list obstacle) (path : list pt) (f : sframe)
  : res (option sframe) :=
  if is_pt (f_endpoint (sf f)) (w_goal (s_world s)) then Ok None
  else match s_type s, f_endpoint (sf f) with
       | Shift, _ => Err TypeError
       | _, None => Err IndexError
       | _, Some e => bind (make_corridor s obs e path) (fun f' => Ok (Some f'))
       end.

(* schedulerproblem.py 336-362: the loop; k frames to go, prev is the variable
   `frame`, None for {}.  The result is (frames, n_frames, next_frame). *)
Fixpoint create_loop (s : scfg) (obs : list obstacle) (path : list pt) (curr : pt) (k : nat)
    (prev : option sframe) (frames : list sframe) (n : nat) (next : option (option sframe))
  : res (list sframe * nat * option (option sframe)) :=
  match k with
  | O => Ok (frames, n, next)
  | S k' =>
      bind (match prev with None => Ok (Some curr) | Some f => last_wp f end) (fun start =>
      if match prev with None => false | Some _ => is_pt start (w_goal (s_world s)) end
      then Ok (frames, (n - 1)%nat, next)
      else match start with
           | None => Err TypeError
           | Some p =>
               bind (make_frame s obs p path) (fun f =>
               let frames' := frames ++ [f] in
               bind (if (n =? 1)%nat then
                       match frames' with
                       | [] => Err IndexError
                       | f0 :: _ => bind (create_next_frame s obs path f0) (fun x => Ok (Some x))
                       end
                     else Ok next) (fun next' =>
               create_loop s obs path curr k' (Some f) frames' n next'))
           end)
  end.

(* waypoints[0] and waypoints[-1] where a point is needed; used by second_last, schedulerproblem.py 530-555 *)
Definition pt_of (w : option pt) : res pt := match w with Some p => Ok p | None => Err TypeError end.
(* with the above, schedulerproblem.py 336-362 *)
Definition first_pt (f : sframe) : res pt :=
  match f_waypoints (sf f) with [] => Err IndexError | w :: _ => pt_of w end.
(* with the above, schedulerproblem.py 336-362 *)
Definition last_pt (f : sframe) : res pt := bind (last_wp f) pt_of.

(* used by l_shape, frame.py 777-875 *)
Definition set_lim (f : sframe) (l : lim) : sframe :=
  SF (Frame (border_of l) (f_waypoints (sf f)) (f_endpoint (sf f)) (f_stationary (sf f)) (f_start (sf f)))
     (s_moving f).

(* frame.py 777-875, create_l_shape on two frames: only the borders change *)
Definition l_shape (s : scfg) (obs : list obstacle) (f1 f2 : sframe) : res (sframe * sframe) :=
  bind (first_pt f1) (fun w10 => bind (first_pt f2) (fun w20 => bind (last_pt f2) (fun w2n =>
  bind (create_l_shape (fcfg s obs) (lims f1) (lims f2) (f_start (sf f1)) w10 w20 w2n) (fun '(a, b) =>
    Ok (set_lim f1 a, set_lim f2 b))))).

(* schedulerproblem.py 373-374 *)
Fixpoint l_chain (s : scfg) (obs : list obstacle) (f : sframe) (rest : list sframe) : res (list sframe) :=
  match rest with
  | [] => Ok [f]
  | g :: rest' =>
      bind (l_shape s obs f g) (fun '(f', g') => bind (l_chain s obs g' rest') (fun r => Ok (f' :: r)))
  end.

(* schedulerproblem.py 364-379 *)
Definition l_frames (s : scfg) (obs : list obstacle) (path : list pt) (frames : list sframe) (n : nat)
    (next : option (option sframe)) : res (list sframe * option (option sframe)) :=
  match s_type s, s_lshape s with
  | Corridor, true =>
      match frames with
      | [] => Err IndexError
      | f0 :: rest =>
          match (n =? 1)%nat, next with
          | true, Some None => Err AttributeError
          | true, Some (Some nf) =>
              bind (l_shape s obs f0 nf) (fun '(a, b) => Ok ([a], Some (Some b)))
          | _, _ =>
              bind (l_chain s obs f0 rest) (fun fs =>
                let f := last fs f0 in
                bind (create_next_frame s obs path f) (fun nx =>
                  match nx with
                  | None => Ok (fs, next)
                  | Some nf => bind (l_shape s obs f nf) (fun '(a, _) => Ok (removelast fs ++ [a], next))
                  end))
          end
      end
  | _, _ => Ok (frames, next)
  end.

(* schedulerproblem.py 309-379, create_frames *)
Definition create_frames (s : scfg) (obs : list obstacle) (path : list pt) (curr : pt)
    (frames : list sframe) (n : nat) (next : option (option sframe))
  : res (list sframe * nat * option (option sframe)) :=
  bind (match frames with
        | [] => create_loop s obs path curr n None [] n next
        | f0 :: rest =>
            let fs := if (n =? 1)%nat then frames else rest in
            match rev fs with
            | [] => Err IndexError
            | f :: _ => create_loop s obs path curr 1 (Some f) fs n next
            end
        end) (fun '(fs, n', next') =>
  bind (l_frames s obs path fs n' next') (fun '(fs', next'') => Ok (fs', n', next''))).

(* ---- the motion times ---------------------------------------------------- *)

(* used by guess_time, schedulerproblem.py 563-658 *)
Fixpoint all_pts (ws : list (option pt)) : res (list pt) :=
  match ws with
  | [] => Ok []
  | None :: _ => Err TypeError
  | Some p :: rest => bind (all_pts rest) (fun r => Ok (p :: r))
  end.
(* schedulerproblem.py 582-585 *)
Fixpoint net (ws : list pt) : pt :=
  match ws with
  | p :: ((q :: _) as rest) =>
      let l := net rest in (fst q - fst p + fst l, snd q - snd p + snd l)
  | _ => (0, 0)
  end.
(* schedulerproblem.py 563-658, get_init_guess_new_frame: the motion time.  With a Holonomic
   vehicle line 634 raises when the points of time are all zero, which in exact
   arithmetic is l_x = l_y = 0. *)
Definition guess_time (s : scfg) (ws : list (option pt)) : res Q :=
  bind (all_pts ws) (fun ps =>
    let '(lx, ly) := net ps in
    if negb (w_dubins (s_world s)) && (eqb lx 0 && eqb ly 0) then Err RuntimeError
    else Ok (w_sqrt (s_world s) (lx * lx + ly * ly) / (w_vmax (s_world s) * (1 # 2)))).

(* line 574: waypoints[0] of the current frame becomes the current position; used by guess_frames, schedulerproblem.py 516-519 *)
Definition start_here (curr : pt) (f : sframe) : res sframe :=
  match f_waypoints (sf f) with
  | [] => Err IndexError
  | _ :: ws => Ok (SF (Frame (f_border (sf f)) (Some curr :: ws) (f_endpoint (sf f)) (f_stationary (sf f))
                             (f_start (sf f))) (s_moving f))
  end.

(* schedulerproblem.py 516-519 for the frames k, k+1, ... of guess_idx; the first argument tells
   whether the first one of them is frames[0].  m: how many.  The result: the
   frames and the motion times. *)
Fixpoint guess_frames (s : scfg) (curr : pt) (zero : bool) (m : nat) (fs : list sframe)
  : res (list sframe * list Q) :=
  match m with
  | O => Ok (fs, [])
  | S m' =>
      match fs with
      | [] => Err IndexError
      | f :: rest =>
          bind (if zero then start_here curr f else Ok f) (fun f' =>
          bind (guess_time s (f_waypoints (sf f'))) (fun t =>
          bind (guess_frames s curr false m' rest) (fun '(rest', ts) => Ok (f' :: rest', t :: ts))))
      end
  end.

(* The variable T<k> of the local problem, which has as many of them as rooms; used by reuse_times, schedulerproblem.py 497-519 *)
Definition get_T (rooms : list room) (T : nat -> Q) (k : nat) : res Q :=
  if (k <? length rooms)%nat then Ok (T k) else Err KeyError.
(* with the above, schedulerproblem.py 516-519 *)
Fixpoint get_Ts (rooms : list room) (T : nat -> Q) (k m : nat) : res (list Q) :=
  match m with
  | O => Ok []
  | S m' => bind (get_T rooms T k) (fun t => bind (get_Ts rooms T (S k) m') (fun r => Ok (t :: r)))
  end.

(* schedulerproblem.py 497-519: motion times of the frames that were solved before (660-671 for
   the first one, 506-508 for the next ones) and of the new one *)
Definition reuse_times (rooms : list room) (T : nat -> Q) (n : nat) : res (list Q) :=
  bind (if (1 <? n)%nat
        then bind (get_T rooms T 0) (fun a => bind (get_T rooms T 1) (fun b => Ok [a + b]))
        else Ok []) (fun first =>
  bind (get_Ts rooms T 2 (n - 2)) (fun mid => Ok (first ++ mid))).

(* used by get_init_guess, schedulerproblem.py 481-561 *)
Definition guess_all (s : scfg) (curr : pt) (frames : list sframe) (n : nat)
    (old : option (list room)) (T : nat -> Q) : res (list sframe * list Q) :=
  match old with
  | None => guess_frames s curr true n frames
  | Some rooms =>
      bind (reuse_times rooms T n) (fun ts =>
      bind (guess_frames s curr (n - 1 =? 0)%nat 1 (skipn (n - 1) frames)) (fun '(fs, t) =>
        Ok (firstn (n - 1) frames ++ fs, ts ++ t)))
  end.

(* schedulerproblem.py 530-555: the terminal condition *)
Definition second_last (f : sframe) : res pt :=
  match rev (f_waypoints (sf f)) with _ :: w :: _ => pt_of w | _ => Err IndexError end.
(* with the above, schedulerproblem.py 530-555 *)
Definition second (f : sframe) : res pt :=
  match f_waypoints (sf f) with _ :: w :: _ => pt_of w | _ => Err IndexError end.
(* with the above, schedulerproblem.py 530-555 *)
Definition set_target (s : scfg) (frames : list sframe) (next : option (option sframe)) : res target :=
  match rev frames with
  | [] => Err IndexError
  | f :: _ =>
      bind (last_wp f) (fun w =>
      if w_dubins (s_world s) then
        if is_pt w (w_goal (s_world s)) then Ok AtGoal
        else
          bind (second_last f) (fun p1 =>
          bind (match next with
                | Some None => Err AttributeError
                | Some (Some nf) => second nf
                | None => pt_of w
                end) (fun p2 =>
          bind (pt_of w) (fun p => Ok (AtPose p (fst p2 - fst p1, snd p2 - snd p1)))))
      else bind (pt_of w) (fun p => Ok (AtPoint p)))
  end.

(* schedulerproblem.py 481-561, get_init_guess *)
Definition get_init_guess (s : scfg) (curr : pt) (frames : list sframe) (n : nat)
    (next : option (option sframe)) (old : option (list room)) (T : nat -> Q)
  : res (list sframe * list Q * target) :=
  bind (guess_all s curr frames n old T) (fun '(fs, ts) =>
  bind (set_target s fs next) (fun tg => Ok (fs, ts, tg))).

(* ---- obstacles and rooms ------------------------------------------------- *)

(* frame.get_moving_obstacles(motion_time), as identities; used by look, schedulerproblem.py 128-130 *)
Definition seen (s : scfg) (obs : list obstacle) (f : sframe) (t : Q) : list nat :=
  map o_id (fst (get_moving_obstacles (lims f) (s_ts s) t obs)).
(* with the above, schedulerproblem.py 481-561 *)
Definition set_moving (f : sframe) (m : list nat) : sframe := SF (sf f) m.

(* schedulerproblem.py 128-130 and 474-475; motion_times[idx] may be missing *)
Fixpoint look (s : scfg) (obs : list obstacle) (fs : list sframe) (ts : list Q) : res (list sframe) :=
  match fs, ts with
  | [], _ => Ok []
  | _ :: _, [] => Err IndexError
  | f :: fs', t :: ts' => bind (look s obs fs' ts') (fun r => Ok (set_moving f (seen s obs f t) :: r))
  end.

(* schedulerproblem.py 700-714, generate_problem *)
Definition room_of (f : sframe) : room := Room (lims f) (map o_id (f_stationary (sf f)) ++ s_moving f).
(* with the above, schedulerproblem.py 700-714 *)
Definition generate_problem (frames : list sframe) (n : nat) : res (list room) :=
  if (n <=? length frames)%nat then Ok (map room_of (firstn n frames)) else Err IndexError.

(* set(a) != set(b); with schedulerproblem.py 700-714 *)
Definition mem (x : nat) (l : list nat) : bool := existsb (Nat.eqb x) l.
(* with the above, schedulerproblem.py 700-714 *)
Definition same_set (a b : list nat) : bool :=
  forallb (fun x => mem x b) a && forallb (fun x => mem x a) b.

(* schedulerproblem.py 183-191: the frames and the variable new_problem *)
Fixpoint compare (s : scfg) (obs : list obstacle) (fs : list sframe) (ts : list Q) (new : bool)
  : res (list sframe * bool) :=
  match fs, ts with
  | [], _ => Ok ([], new)
  | _ :: _, [] => Err IndexError
  | f :: fs', t :: ts' =>
      let m := seen s obs f t in
      let changed := negb (same_set m (s_moving f)) in
      bind (compare s obs fs' ts' changed) (fun '(r, b) =>
        Ok ((if changed then set_moving f m else f) :: r, b))
  end.

(* ---- the calls of the simulator ------------------------------------------ *)

(* schedulerproblem.py 109-136, reinitialize *)
Definition reinitialize (s : scfg) (obs : list obstacle) (T : nat -> Q) (g : sched) : res sched :=
  let path := with_goal s (w_planner0 (s_world s)) in
  bind (create_frames s obs path (g_curr g) (g_frames g) (g_n g) (g_next g)) (fun '(fs, n, next) =>
  bind (get_init_guess s (g_curr g) fs n next (if g_solved g then g_rooms g else None) T)
    (fun '(fs', ts, tg) =>
  bind (look s obs fs' ts) (fun fs'' =>
  bind (generate_problem fs'' n) (fun rooms =>
    Ok (Sched fs'' n next (g_cnt g) ts (Some rooms) false (Some tg) (g_curr g)))))).

(* schedulerproblem.py 409-431, check_frames *)
Definition check_frames (s : scfg) (curr : pt) (frames : list sframe) (n : nat)
    (next : option (option sframe)) : res bool :=
  match frames with
  | [] => Err IndexError
  | f0 :: rest =>
      if point_in_frame (lims f0) (w_goal (s_world s)) 0 then Ok true
      else
        match (n =? 1)%nat, next with
        | true, Some None => Err AttributeError
        | true, Some (Some nf) => Ok (negb (point_in_frame (lims nf) curr (w_veh (s_world s))))
        | _, _ =>
            match rest with
            | [] => Err IndexError
            | f1 :: _ => Ok (negb (point_in_frame (lims f1) curr (w_veh (s_world s))))
            end
        end
  end.

(* schedulerproblem.py 443-466, in update_frames; arg: the argument next_frame *)
Definition move_on (s : scfg) (obs : list obstacle) (path : list pt) (curr : pt)
    (frames : list sframe) (n : nat) (next : option (option sframe)) (arg : option sframe)
  : res (list sframe * nat * option (option sframe)) :=
  match arg with
  | Some nf =>
      bind (create_next_frame s obs path nf) (fun new =>
      match frames with
      | [] => Err IndexError
      | _ :: rest =>
          match s_type s, s_lshape s, new with
          | Corridor, true, Some new' =>
              bind (l_shape s obs nf new') (fun '(a, b) => Ok ([a], n, Some (Some b)))
          | _, _, _ => Ok (nf :: rest, n, Some new)
          end
      end)
  | None => create_frames s obs path curr frames n next
  end.

(* schedulerproblem.py 157-161: the argument of update_frames *)
Definition next_arg (n : nat) (next : option (option sframe)) : option sframe :=
  match (n =? 1)%nat, next with true, Some x => x | _, _ => None end.

(* schedulerproblem.py 169-177: the motion times of the local problem *)
Fixpoint set_times (ts : list Q) (k m : nat) (T : nat -> Q) {struct m} : res (list Q) :=
  match m with
  | O => Ok ts
  | S m' => match ts with
            | [] => Err IndexError
            | _ :: ts' => bind (set_times ts' (S k) m' T) (fun r => Ok (T k :: r))
            end
  end.

(* schedulerproblem.py 138-209, solve: curr is the current position, obs the
   obstacles as they are now, T the variables of the last solution.  The boolean
   tells whether a new local problem was made. *)
Definition solve (s : scfg) (curr : pt) (obs : list obstacle) (T : nat -> Q) (g : sched)
  : res (sched * bool) :=
  bind (check_frames s curr (g_frames g) (g_n g) (g_next g)) (fun valid =>
  if valid then
    bind (if s_freeT s then
            bind (match g_rooms g with None => Err AttributeError | Some r => get_Ts r T 0 (g_n g) end)
                 (fun _ => set_times (g_times g) 0 (g_n g) T)
          else Ok [w_horizon (s_world s)]) (fun ts =>
    bind (compare s obs (g_frames g) ts false) (fun '(fs, new) =>
    if new then
      bind (generate_problem fs (g_n g)) (fun rooms =>
        Ok (Sched fs (g_n g) (g_next g) (g_cnt g) ts (Some rooms) true (g_target g) curr, true))
    else Ok (Sched fs (g_n g) (g_next g) (g_cnt g) ts (g_rooms g) true (g_target g) curr, false)))
  else
    let path := with_goal s (w_planner (s_world s) curr) in
    bind (move_on s obs path curr (g_frames g) (g_n g) (g_next g) (next_arg (g_n g) (g_next g)))
      (fun '(fs, n, next) =>
    bind (get_init_guess s curr fs n next (if g_solved g then g_rooms g else None) T)
      (fun '(fs', ts, tg) =>
    bind (look s obs fs' ts) (fun fs'' =>
    bind (generate_problem fs'' n) (fun rooms =>
      Ok (Sched fs'' n next (S (g_cnt g)) ts (Some rooms) true (Some tg) curr, true)))))).

(* schedulerproblem.py 241-248, stop_criterium; None: Python's None; inner is what
   the local problem answers *)
Definition stop_criterium (s : scfg) (g : sched) (inner : bool) : res (option bool) :=
  match rev (g_frames g) with
  | [] => Err IndexError
  | f :: _ => Ok (if is_pt (f_endpoint (sf f)) (w_goal (s_world s))
                  then if inner then Some true else None
                  else Some false)
  end.

(* ---- whole executions ---------------------------------------------------- *)

(* one call of solve: the position, the obstacles and the last solution; schedulerproblem.py 138-209 *)
Record input := Input { i_curr : pt; i_obs : list obstacle; i_T : nat -> Q }.

(* deployer/simulator: reinitialize once, then solve again and again; schedulerproblem.py 109-136 and 138-209 *)
Fixpoint solves (s : scfg) (ins : list input) (g : sched) : res sched :=
  match ins with
  | [] => Ok g
  | i :: rest => bind (solve s (i_curr i) (i_obs i) (i_T i) g) (fun '(g', _) => solves s rest g')
  end.
(* with the above, schedulerproblem.py 241-248 *)
Definition execute (w : world) (o : option options) (start : input) (ins : list input)
  : res (scfg * sched) :=
  bind (sched_init w o (i_curr start)) (fun '(s, g) =>
  bind (reinitialize s (i_obs start) (i_T start) g) (fun g' =>
  bind (solves s ins g') (fun g'' => Ok (s, g'')))).
