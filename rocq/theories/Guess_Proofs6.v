(** Trailers, and the vehicles that get no guess. *)
From Coq Require Import String Reals List Arith Bool Lia Lra.
From Verif Require Import Spline_Model Spline_Spec Guess_Model Guess_Spec Guess_Proofs Guess_Proofs2 Guess_Proofs3 Guess_Proofs4 Guess_Proofs5.
Import ListNotations.
Local Open Scope R_scope.
Local Notation length := List.length.

Lemma angle_sweep : forall b x y, good_basis b -> - PI < x < PI -> - PI < y < PI ->
  let angle t := 2 * atan (curve b (ramp b (half_tan x) (half_tan y)) 0 t) in
  angle 0 = x /\ angle 1 = y /\
  forall t u, 0 <= t -> t <= u -> u <= 1 -> (x <= y -> angle t <= angle u) /\ (y <= x -> angle u <= angle t).
Proof.
  intros b x y G X Y.
  set (s := fun k => if (k =? 2)%nat then x else 0). set (g := fun k => if (k =? 2)%nat then y else 0).
  destruct (guess_angle Dubins 1 2 2 b s g ang_d G X Y) as (a & E & _ & K). cbn in E. injection E as <-.
  exact K.
Qed.
(** the trailer's own column, then the columns of the vehicle that pulls it *)
Theorem guess_trailer : forall b n th thT lead cs, good_basis b -> - PI < th < PI -> (forall x, thT = Some x -> - PI < x < PI) ->
  (init_value lead None = Ok (GArr (rows b) cs) \/ init_value lead None = Ok (GList [A2 (rows b) cs])) ->
  exists col, init_value (Trailer b n th thT lead) None = Ok (GArr (rows b) (col :: cs)) /\ length col = rows b /\
    let angle t := 2 * atan (curve b col 0 t) in
    let goal := match thT with Some x => x | None => th end in
    angle 0 = th /\ angle 1 = goal /\
    forall t u, 0 <= t -> t <= u -> u <= 1 -> (th <= goal -> angle t <= angle u) /\ (goal <= th -> angle u <= angle t).
Proof.
  intros b n th thT lead cs G T0 T1 L. set (goal := match thT with Some x => x | None => th end).
  exists (ramp b (half_tan th) (half_tan goal)). split; [|split; [apply ramp_length|apply angle_sweep; [exact G|exact T0|]]].
  - cbn [init_value]. destruct L as [E|E]; rewrite E; cbn [beside]; rewrite Nat.eqb_refl; destruct thT; reflexivity.
  - subst goal. destruct thT as [x|]; [apply T1; reflexivity|exact T0].
Qed.
(** and the trailer needs a basis of the same size as the vehicle that pulls it *)
Theorem trailer_sizes : forall b n th thT lead sub g, init_value (Trailer b n th thT lead) sub = Ok g -> sub = None /\ rows b = rows (v_basis lead).
Proof.
  intros b n th thT lead. revert b n th thT. induction lead as [c b' n' s q|b' n' th' thT' lead IH]; intros b n th thT [sub|] g E; try discriminate;
    (split; [reflexivity|]); cbn [v_basis].
  - cbn [init_value] in E. destruct (single_value c b' n' s q None) as [g'|e] eqn:V; [|discriminate].
    destruct g' as [l|n1 cs]; [|exfalso; destruct c; cbn in V; try discriminate; [destruct n' as [[|[|?]]|]; discriminate|match type of V with context [if ?c then _ else _] => destruct c end; discriminate]].
    pose proof (guess_shape c b' n' s q None l V) as [F _].
    destruct l as [|[v|n1 cs] [|a l']]; try discriminate. pose proof (Forall_inv F) as (_ & _ & X). cbn in X.
    cbn [beside] in E. destruct (Nat.eqb_spec n1 (rows b)); [congruence|discriminate].
  - change (match init_value (Trailer b' n' th' thT' lead) None with Raise e => Raise e
            | Ok g => beside (rows b) (ramp b (half_tan th) (match thT with Some x => half_tan x | None => half_tan th end)) g end = Ok g) in E.
    destruct (init_value (Trailer b' n' th' thT' lead) None) as [g'|e] eqn:V; [|discriminate].
    assert (exists cs, g' = GArr (rows b') cs) as (cs & ->).
    { cbn [init_value] in V. destruct (init_value lead None) as [g''|e]; [|discriminate]. unfold beside in V.
      destruct g'' as [[|[v|n1 cs] [|? ?]]|n1 cs]; try discriminate; destruct (Nat.eqb n1 _); try discriminate; injection V as <-; eauto. }
    cbn [beside] in E. destruct (Nat.eqb_spec (rows b') (rows b)); [congruence|discriminate].
Qed.
Lemma trailer_lead : forall b n th thT lead sub g, init_value (Trailer b n th thT lead) sub = Ok g ->
  exists cs, g = GArr (rows b) cs /\ exists g', init_value lead None = Ok g'.
Proof.
  intros b n th thT lead [sub|] g E; [discriminate|]. cbn [init_value] in E. destruct (init_value lead None) as [g'|e]; [|discriminate].
  unfold beside in E. destruct g' as [[|[v|n1 cs] [|? ?]]|n1 cs]; try discriminate; destruct (Nat.eqb n1 _); try discriminate;
    injection E as <-; eauto.
Qed.
(** without points to go through there is one array at most *)
Lemma none_single : forall v g, init_value v None = Ok g -> exists a, item g 0 = Some a /\ item g 1 = None.
Proof.
  intros [c b n s q|b n th thT lead] g E.
  - destruct c; cbn in E; try discriminate; try (injection E as <-; cbn; eauto; fail).
    + destruct n as [[|[|?]]|]; try discriminate. injection E as <-. cbn. eauto.
    + match type of E with context [if ?c then _ else _] => destruct c end; [discriminate|]. injection E as <-. cbn. eauto.
  - destruct (trailer_lead _ _ _ _ _ _ _ E) as (cs & -> & _). cbn. eauto.
Qed.
Lemma item_mono : forall g j, item g 1 = None -> (1 <= j)%nat -> item g j = None.
Proof.
  intros [l|n cs] j H J; cbn [item] in *.
  - apply nth_error_None in H. apply nth_error_None. lia.
  - destruct (Nat.eqb_spec j 0); [lia|reflexivity].
Qed.
Theorem reinit_segments : forall vs i m m', reinitialize i vs m = Ok m' -> forall v, In v vs -> exists n, v_seg v = Some n /\ (n <= 1)%nat.
Proof.
  intros vs i m m' E v X. destruct (reinit_raises vs i m m' E v X) as (g & n & V & N & I). exists n. split; [exact N|].
  destruct (none_single v g V) as (a & _ & Z). destruct (le_lt_dec n 1) as [Q|Q]; [exact Q|]. exfalso. exact (I 1%nat Q Z).
Qed.
(** a method for the points to go through is there for Holonomic only *)
Theorem frames_only_holonomic : forall n rooms vs i m m', reinitialize_frames n i rooms vs m = Ok m' ->
  forall v, In v vs -> exists b k s g, v = Single Holonomic b (Some k) s g.
Proof.
  intros n rooms. induction vs as [|u r IH]; intros i m m' E v X; [contradiction|]. cbn [reinitialize_frames] in E.
  destruct (centres (n - 1) rooms) as [sub|e]; [|discriminate]. destruct (init_value u (Some sub)) as [g|e] eqn:V; [|discriminate].
  destruct (set_segments i g 0 n m) as [m1|e]; [|discriminate]. destruct X as [<-|X]; [|eapply IH; eauto].
  destruct u as [c b k s q|b k th thT lead]; [|discriminate]. destruct c; try discriminate. cbn in V.
  destruct k as [k|]; [|discriminate]. eauto.
Qed.
(** the class Tool has no guess, nor has a trailer behind it *)
Theorem tool_raises : forall v sub, head v = Tool -> exists e, init_value v sub = Raise e.
Proof.
  induction v as [c b n s g|b n th thT lead IH]; intros sub H.
  - cbn in H; subst c. exists "AttributeError"%string. reflexivity.
  - cbn [head] in H. destruct sub; [eexists; reflexivity|]. destruct (IH None H) as (e & E). exists e. cbn [init_value]. rewrite E. reflexivity.
Qed.
(** a list of guesses is shared by all vehicles: with two vehicles that should
    go to different places, both get the same guess *)
Theorem reset_shared : forall vs l m m', reset_init_guess (Some l) vs m = Ok m' ->
  forall i i' j, (i < length vs)%nat -> (i' < length vs)%nat -> (j < length l)%nat -> m' i j = m' i' j.
Proof.
  intros vs l m m' E i i' j I I' J.
  destruct (reset_given vs l m (reset_given_back vs l m m' E)) as (m1 & M & A & _).
  rewrite E in M. injection M as <-. destruct (nth_error l j) as [a|] eqn:N; [|apply nth_error_None in N; lia].
  rewrite (A i j a I N), (A i' j a I' N). reflexivity.
Qed.
(** the guess of a vehicle with any number of trailers has the shape of its variables *)
Theorem guess_fits : forall v sub g k a, init_value v sub = Ok g -> item g k = Some a -> shaped (rows (v_basis v)) (v_spl v) a.
Proof.
  induction v as [c b n s q|b n th thT lead IH]; intros sub g k a E K.
  - assert (exists l, g = GList l) as (l & ->).
    { destruct c, sub; cbn in E; try discriminate; try (injection E as <-; eauto; fail);
      try (destruct n as [[|[|?]]|]; try discriminate; injection E as <-; eauto; fail).
      match type of E with context [if ?c then _ else _] => destruct c end; [discriminate|injection E as <-; eauto]. }
    destruct (guess_shape c b n s q sub l E) as [F _]. cbn [item] in K. rewrite Forall_forall in F. exact (F a (nth_error_In _ _ K)).
  - destruct (trailer_sizes _ _ _ _ _ _ _ E) as [-> R]. cbn [v_basis v_spl]. cbn [init_value] in E.
    destruct (init_value lead None) as [g'|e] eqn:V; [|discriminate].
    set (col := ramp b (half_tan th) (match thT with Some x => half_tan x | None => half_tan th end)) in *.
    assert (X : exists cs, g = GArr (rows b) (col :: cs) /\ item g' 0 = Some (A2 (rows b) cs)).
    { unfold beside in E. destruct g' as [[|[u|n1 cs] [|? ?]]|n1 cs]; try discriminate; destruct (Nat.eqb_spec n1 (rows b)); try discriminate;
        injection E as <-; subst; exists cs; split; reflexivity. }
    destruct X as (cs & -> & I0). destruct (IH None g' 0%nat _ V I0) as (L & F & _). rewrite <- R in F.
    destruct k as [|k]; cbn in K; [|discriminate]. injection K as <-. cbn [columns_of] in *. split; [cbn; f_equal; exact L|]. split; [|reflexivity].
    intros w [<-|W]; [apply ramp_length|apply F, W].
Qed.
