(** Model of the frame selection in omgtools/execution/plotlayer.py.

    Simplifications: only the indices of the drawn samples are modelled, not
    the drawing; exceptions are None. *)
From Coq Require Import ZArith List Reals.
Import ListNotations.
Local Open Scope Z_scope.

(** range(0, n, s); a zero step is a ValueError; used by movie, plotlayer.py 310-319 *)
Definition py_range (n s : Z) : option (list Z) :=
  if s =? 0 then None
  else if s <? 0 then Some (map (fun k => Z.of_nat k * s) (seq 0 (Z.to_nat ((- n + (- s) - 1) / (- s)))))
  else Some (map (fun k => Z.of_nat k * s) (seq 0 (Z.to_nat ((n + s - 1) / s)))).

(** plotlayer.py 312-316 and 331-335: the number of frames; req is the
    argument number_of_frames, n = len(t)-1 *)
Definition nof (n : Z) (req : option Z) : Z :=
  match req with
  | Some r => if r <=? n then r else n
  | None => n
  end.

(** plotlayer.py 317, 340: a // 0 is a ZeroDivisionError, // rounds down *)
Definition subsample (n f : Z) : option Z := if f - 1 =? 0 then None else Some (n / (f - 1)).

(** plotlayer.py 310-319 (plot_movie) and 327-338 (save_movie, format gif) *)
Definition movie (n : Z) (req : option Z) : option (list Z) :=
  let f := nof n req in
  match subsample n f with
  | None => None
  | Some s =>
    match py_range n s with
    | None => None
    | Some ix => Some (ix ++ repeat n (Z.to_nat (f - Z.of_nat (length ix))))
    end
  end.

(** plotlayer.py 376: save_movie, format tikz *)
Definition movie_tikz (n : Z) (req : option Z) : option (list Z) :=
  match subsample n (nof n req) with
  | None => None
  | Some s => py_range n s
  end.

(** plotlayer.py 43-48: one component of mix_with_white *)
Definition mix (perc c : R) : R := (((100 - perc) * c + perc) / 100)%R.
