(* What the time bookkeeping should do, stated without the model. *)
Require Import QArith ZArith List String.
Import ListNotations.
Open Scope Q_scope.

(* the integer z as a rational *)
Notation zq := inject_Z.

(* l is 0, ts, 2 ts, ... *)
Definition on_grid (ts : Q) (l : list Q) : Prop :=
  l <> [] /\ forall k, (k < List.length l)%nat -> nth k l 0 == zq (Z.of_nat k) * ts.

(* t is a whole number of steps *)
Definition whole (ts t : Q) : Prop := exists k : Z, (0 <= k)%Z /\ t == zq k * ts.

(* t is a whole number of microseconds *)
Definition micro (t : Q) : Prop := exists z : Z, t == zq z / 1000000.

(* every signal of the dictionary has n samples *)
Definition aligned {C} (n : nat) (d : list (string * list C)) : Prop :=
  Forall (fun kv => List.length (snd kv) = n) d.

(* the times never go back and start at t0 *)
Fixpoint ordered (t0 : Q) (l : list Q) : Prop :=
  match l with
  | [] => True
  | t :: r => t0 <= t /\ ordered t r
  end.

(* each step is at most w long *)
Fixpoint steps_within (w t0 : Q) (l : list Q) : Prop :=
  match l with
  | [] => True
  | t :: r => t - t0 <= w /\ steps_within w t r
  end.

(* a simulation step of n samples: the dictionary tr has the given keys, its
   signals are equally long and reach beyond sample n, and the simulated time
   is n sample times *)
Definition regular {O C} (ts : Q) (keys : list string) (n : nat)
    (p : O * list (string * list C) * Q) : Prop :=
  map fst (snd (fst p)) = keys /\ snd p == zq (Z.of_nat n) * ts /\
  exists m, (n < m)%nat /\ aligned m (snd (fst p)).

(* the plans: the i-th column of the 'time' trajectory of a step is the time of
   the step plus i sample times; the next step starts where this one ended *)
Fixpoint replanned {O} (ts now : Q) (ns : list nat)
    (l : list (O * (string -> list Q))) : Prop :=
  match ns, l with
  | n :: ns, p :: l =>
      (forall i, (i <= n)%nat -> nth i (snd p "time"%string) 0 == now + zq (Z.of_nat i) * ts) /\
      replanned ts (now + zq (Z.of_nat n) * ts) ns l
  | _, _ => True
  end.
