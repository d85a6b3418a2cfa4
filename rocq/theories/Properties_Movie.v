(** Frames of a movie (C56). *)
From Coq Require Import ZArith List Lia Reals Lra.
From Verif Require Import Movie_Model Movie_Spec Movie_Proofs.
Import ListNotations.
Local Open Scope Z_scope.

(* at least two frames: all indices exist, the movie starts at the first sample and never runs backwards, and it has at least the requested number of frames and less than twice as many *)
Theorem C56_frames : forall n req, 2 <= nof n req -> exists ix, movie n req = Some ix /\
  valid n ix /\ forward ix /\ nth 0 ix (-1) = 0 /\
  nof n req <= Z.of_nat (length ix) <= 2 * (nof n req - 1).
Proof. exact movie_runs. Qed.
Example C56_frames_ex : exists ix, movie 10 (Some 4) = Some ix /\ valid 10 ix /\ ix = [0; 3; 6; 9].
Proof.
  destruct (C56_frames 10 (Some 4) ltac:(cbn; lia)) as (ix & E & V & _). exists ix. split; [exact E|]. split; [exact V|].
  injection E as <-. reflexivity.
Qed.
Print Assumptions C56_frames.

(* the last sample is shown exactly when the number of steps of the movie divides the number of steps of the simulation *)
Theorem C56_last : forall n req ix, 2 <= nof n req -> movie n req = Some ix ->
  (In n ix <-> (nof n req - 1 | n)).
Proof. exact last_shown. Qed.
Example C56_last_ex : exists ix, movie 9 (Some 4) = Some ix /\ In 9 ix.
Proof.
  eexists. split; [reflexivity|]. apply (C56_last 9 (Some 4)); [cbn; lia|reflexivity|]. exists 3. reflexivity.
Qed.
Print Assumptions C56_last.

(* without a requested number every sample but the last is shown *)
Theorem C56_default : forall n, 3 <= n -> movie n None = Some (map Z.of_nat (seq 0 (Z.to_nat n))).
Proof. exact default_movie. Qed.
Example C56_default_ex : movie 4 None = Some [0; 1; 2; 3].
Proof. rewrite C56_default by lia. reflexivity. Qed.
Print Assumptions C56_default.

Theorem C56_default_last_refuted : forall n ix, 3 <= n -> movie n None = Some ix -> ~ In n ix.
Proof. exact default_last_refuted. Qed.
Example C56_default_last_refuted_ex : ~ In 4 [0; 1; 2; 3].
Proof. apply (C56_default_last_refuted 4); [lia|reflexivity]. Qed.
Print Assumptions C56_default_last_refuted.

(* seven frames of eleven samples are ten frames *)
Theorem C56_more_frames_refuted : exists n r ix, 2 <= r <= n /\ movie n (Some r) = Some ix /\ Z.of_nat (length ix) > r.
Proof. exact more_frames_refuted. Qed.
Print Assumptions C56_more_frames_refuted.

(* there is no movie of one frame and no movie before the first update *)
Theorem C56_defined : forall n req, 0 <= n -> ((exists ix, movie n req = Some ix) <-> 1 <= n /\ nof n req <> 1).
Proof. exact movie_defined. Qed.
Example C56_defined_ex : ~ exists ix, movie 0 None = Some ix.
Proof. intro H. apply (C56_defined 0 None ltac:(lia)) in H. lia. Qed.
Print Assumptions C56_defined.

Theorem C56_single_frame_refuted : forall n, 1 <= n -> movie n (Some 1) = None.
Proof. exact single_frame_refuted. Qed.
Example C56_single_frame_refuted_ex : movie 5 (Some 1) = None.
Proof. apply C56_single_frame_refuted. lia. Qed.
Print Assumptions C56_single_frame_refuted.

(* zero or a negative number of frames: nothing is shown *)
Theorem C56_empty : forall n r, 1 <= n -> r <= 0 -> movie n (Some r) = Some [].
Proof. exact empty_movie. Qed.
Example C56_empty_ex : movie 5 (Some 0) = Some [].
Proof. apply C56_empty; lia. Qed.
Print Assumptions C56_empty.

(* the tikz format never shows the last sample *)
Theorem C56_tikz_last_refuted : forall n req ix, 2 <= nof n req -> movie_tikz n req = Some ix -> ~ In n ix.
Proof. exact tikz_last_refuted. Qed.
Example C56_tikz_last_refuted_ex : ~ In 9 [0; 3; 6].
Proof. apply (C56_tikz_last_refuted 9 (Some 4)); [cbn; lia|reflexivity]. Qed.
Print Assumptions C56_tikz_last_refuted.

(* colours mixed with white stay colours *)
Theorem C56_colour : forall perc c, (0 <= perc <= 100)%R -> (0 <= c <= 1)%R -> (c <= mix perc c <= 1)%R.
Proof. exact mix_colour. Qed.
Example C56_colour_ex : (17 / 255 <= mix 80 (17 / 255) <= 1)%R.
Proof. apply C56_colour; lra. Qed.
Print Assumptions C56_colour.
