(* Scaling a corridor frame up: what it keeps, where it stops, that it stops. *)
From Coq Require Import QArith Qabs Qminmax Qround ZArith List Bool Lia Lqa.
From Verif Require Import Frame_Model Frame_Spec Frame_Proofs.
Import ListNotations.
Open Scope bool_scope.
Open Scope Q_scope.

Lemma within_refl l : within l l.
Proof. unfold within. lra. Qed.
Lemma within_trans a b c : within a b -> within b c -> within a c.
Proof. unfold within. lra. Qed.
Lemma free_within a b obs : within a b -> free b obs -> free a obs.
Proof.
  intros W F o I N. specialize (F o I N). unfold disjoint, within in *. lra.
Qed.
Lemma lim_eq_within a b : lim_eq a b -> within a b.
Proof. unfold lim_eq, within. lra. Qed.
Lemma lim_eq_sym a b : lim_eq a b -> lim_eq b a.
Proof. unfold lim_eq. lra. Qed.
Lemma free_eq a b obs : lim_eq a b -> free b obs -> free a obs.
Proof. intro E. apply free_within, lim_eq_within, E. Qed.

(* position of a side, counted outwards *)
Definition out (d : dir) (v : Q) : Q := match d with XPos | YPos => v | _ => - v end.
Lemma beyond_iff d v r : beyond d v r = true <-> out d r < out d v.
Proof. destruct d; cbn; rewrite ltb_iff; lra. Qed.
Lemma beyond_false d v r : beyond d v r = false <-> out d v <= out d r.
Proof. destruct d; cbn; rewrite ltb_false; lra. Qed.
Lemma out_outward d v s : out d (outward d v s) == out d v + s.
Proof. destruct d; cbn; lra. Qed.
Lemma side_put d l v : side d (put d l v) = v.
Proof. destruct d; reflexivity. Qed.
Lemma put_put d l v w : put d (put d l v) w = put d l w.
Proof. destruct d; reflexivity. Qed.
Lemma put_side d l : put d l (side d l) = l.
Proof. destruct d, l; reflexivity. Qed.
Lemma put_within d l v w : out d v <= out d w -> within (put d l v) (put d l w).
Proof. destruct d, l; unfold within; cbn; lra. Qed.
Lemma within_put d l v : out d (side d l) <= out d v -> within l (put d l v).
Proof. destruct d, l; unfold within; cbn; lra. Qed.

Section loop.
Variable c : cfg.
Hypothesis P : all_plain (env_obs c).
Let obs := env_obs c.
Let step := step_size c.
Let room := room_limits c.

Lemma scale_loop_ok d fuel l l' b : 0 < step -> scale_loop c d fuel l = Ok (l', b) ->
  exists v, l' = put d l v /\ out d (side d l) <= out d v /\ (free l obs -> free l' obs) /\
    (out d (side d l) <= out d (side d room) -> out d v <= out d (side d room)) /\
    ((b = l' /\ ~ free (put d l (outward d v step)) obs)
     \/ (b = put d l (outward d v step) /\ out d (side d room) < out d (outward d v step))).
Proof.
  intro ST. revert l. induction fuel as [|f IH]; cbn [scale_loop]; intros l H; [discriminate|].
  fold step in H. fold room in H. rewrite side_put in H.
  destruct (beyond d (outward d (side d l) step) (side d room)) eqn:B.
  - injection H as <- <-. exists (side d l). rewrite put_side.
    repeat split; try tauto; try lra. right. split; [reflexivity|]. apply beyond_iff, B.
  - apply bind_ok in H. destruct H as (st & S & H). apply beyond_false in B.
    destruct st as [|o st]; cbn in H.
    + destruct (IH _ H) as (v & E & O & F & R & K). rewrite side_put in O, R. rewrite put_put in *.
      exists v. split; [exact E|]. pose proof (out_outward d (side d l) step).
      split; [lra|]. split; [intros _; apply F; apply (stationary_none _ _ P), S|].
      split; [intros _; apply R, B|]. exact K.
    + injection H as <- <-. exists (side d l). rewrite put_side.
      repeat split; try tauto; try lra. left. split; [reflexivity|].
      eapply stationary_some; [exact P|exact S].
Qed.

Lemma scale_dir_ok d fuel l l' b : 0 < step -> out d (side d l) <= out d (side d room) ->
  scale_dir c d fuel l = Ok (l', b) ->
  exists v, l' = put d l v /\ out d (side d l) <= out d v /\ out d v <= out d (side d room) /\
    (free l obs -> free l' obs) /\
    ((b = l' /\ (out d (side d room) < out d v + step \/ ~ free (put d l (outward d v step)) obs))
     \/ (b = put d l (outward d v step) /\ out d (side d room) < out d v + step /\ ~ free b obs)).
Proof.
  intros ST IN H. unfold scale_dir in H. apply bind_ok in H. destruct H as (st & S & H).
  fold obs in S. fold room in S.
  destruct st as [|o st]; cbn in H.
  - injection H as <- <-. fold room. exists (side d room). split; [reflexivity|].
    split; [exact IN|]. split; [lra|]. split; [intros _; apply (stationary_none _ _ P), S|].
    left. split; [reflexivity|]. left. lra.
  - destruct (scale_loop_ok _ _ _ _ _ ST H) as (v & E & O & F & R & K).
    specialize (R IN). exists v. repeat split; try assumption.
    pose proof (out_outward d v step) as OW.
    destruct K as [(E1 & N)|(E1 & B)]; [left; tauto|]. right. repeat split; [exact E1|lra|].
    intro FB. apply (stationary_some _ _ _ _ P S). eapply free_within; [|exact FB].
    rewrite E1. apply put_within. lra.
Qed.

Lemma scale_up_ok fuel l b : 0 < step -> within l room -> scale_up_border c fuel l = Ok b ->
  within l b /\ xlo room <= xlo b /\ xhi b <= xhi room /\ yhi b <= yhi room /\ ylo room - step <= ylo b /\
  (free l obs -> (free b obs <-> ylo room <= ylo b)) /\
  (xhi room < xhi b + step \/ ~ free (Lim (xlo b) (ylo b) (xhi b + step) (yhi b)) obs) /\
  (xlo b - step < xlo room \/ ~ free (Lim (xlo b - step) (ylo b) (xhi b) (yhi b)) obs) /\
  (yhi room < yhi b + step \/ ~ free (Lim (xlo b) (ylo b) (xhi b) (yhi b + step)) obs) /\
  (ylo b - step < ylo room \/ ~ free (Lim (xlo b) (ylo b - step) (xhi b) (yhi b)) obs).
Proof.
  intros ST W H. unfold scale_up_border in H.
  apply bind_ok in H. destruct H as ([l1 b1] & H1 & H).
  apply bind_ok in H. destruct H as ([l2 b2] & H2 & H).
  apply bind_ok in H. destruct H as ([l3 b3] & H3 & H).
  apply bind_ok in H. destruct H as ([l4 b4] & H4 & H). cbn [fst snd] in *. injection H as <-.
  destruct W as (W1 & W2 & W3 & W4).
  apply scale_dir_ok in H1; [|exact ST|cbn [out side]; fold room; lra]. destruct H1 as (v1 & E1 & O1 & R1 & F1 & K1).
  apply scale_dir_ok in H2; [|exact ST|rewrite E1; destruct l as [x0 y0 x1 y1]; cbn [out side put xlo ylo xhi yhi] in *; fold room; lra].
  destruct H2 as (v2 & E2 & O2 & R2 & F2 & K2).
  apply scale_dir_ok in H3; [|exact ST|rewrite E2, E1; destruct l as [x0 y0 x1 y1]; cbn [out side put xlo ylo xhi yhi] in *; fold room; lra].
  destruct H3 as (v3 & E3 & O3 & R3 & F3 & K3).
  apply scale_dir_ok in H4; [|exact ST|rewrite E3, E2, E1; destruct l as [x0 y0 x1 y1]; cbn [out side put xlo ylo xhi yhi] in *; fold room; lra].
  destruct H4 as (v4 & E4 & O4 & R4 & F4 & K4).
  destruct l as [x0 y0 x1 y1].
  cbn [out side put outward xlo ylo xhi yhi] in *. subst l1.
  cbn [out side put outward xlo ylo xhi yhi] in *. subst l2.
  cbn [out side put outward xlo ylo xhi yhi] in *. subst l3.
  cbn [out side put outward xlo ylo xhi yhi] in *. subst l4.
  cbn [out side put outward xlo ylo xhi yhi] in *. fold room in R1, R2, R3, R4, K1, K2, K3, K4.
  assert (FF : free (Lim x0 y0 x1 y1) obs -> free (Lim v2 v4 v1 v3) obs) by tauto.
  (* the border that is left contains Lim v2 v4 v1 v3 *)
  assert (B : exists w, b4 = Lim v2 w v1 v3 /\ w <= v4 /\ ylo room - step <= w /\
     (free (Lim x0 y0 x1 y1) obs -> (free b4 obs <-> ylo room <= w)) /\
     (w - step < ylo room \/ ~ free (Lim v2 (w - step) v1 v3) obs)).
  { destruct K4 as [(-> & K4)|(-> & K4 & N)].
    - exists v4. split; [reflexivity|]. split; [lra|]. split; [lra|]. split.
      + intro F. specialize (FF F). split; [intros _; lra|intros _; exact FF].
      + destruct K4 as [K4|K4]; [left; lra|right; exact K4].
    - exists (v4 - step). split; [reflexivity|]. split; [lra|]. split; [lra|]. split.
      + intro F. split; [intro G; destruct (N G)|intro G; exfalso; lra].
      + left. lra. }
  destruct B as (w & -> & Bw & Br & Bf & Bm). cbn [xlo ylo xhi yhi] in *.
  split; [unfold within; cbn; lra|]. split; [lra|]. split; [lra|]. split; [lra|]. split; [exact Br|].
  split; [exact Bf|]. split; [|split; [|split]].
  - destruct K1 as [(_ & [K|K])|(_ & K & _)]; [left; lra| |left; lra].
    right. intro G. apply K. eapply free_within; [|exact G]. unfold within; cbn; lra.
  - destruct K2 as [(_ & [K|K])|(_ & K & _)]; [left; lra| |left; lra].
    right. intro G. apply K. eapply free_within; [|exact G]. unfold within; cbn; lra.
  - destruct K3 as [(_ & [K|K])|(_ & K & _)]; [left; lra| |left; lra].
    right. intro G. apply K. eapply free_within; [|exact G]. unfold within; cbn; lra.
  - exact Bm.
Qed.

(* ---- the loops end ------------------------------------------------------- *)

Lemma scale_loop_ends d n : forall l, out d (side d room) < out d (side d l) + inject_Z (Z.of_nat n) * step ->
  0 < step -> forall fuel, (n <= fuel)%nat -> (0 < fuel)%nat -> exists r, scale_loop c d fuel l = Ok r.
Proof.
  induction n as [|n IH]; intros l H ST fuel F0 F1.
  - destruct fuel as [|f]; [lia|]. cbn [scale_loop]. fold step. fold room. rewrite side_put.
    change (inject_Z (Z.of_nat 0)) with 0 in H. pose proof (out_outward d (side d l) step) as O.
    assert (B : beyond d (outward d (side d l) step) (side d room) = true) by (apply beyond_iff; lra).
    rewrite B. eauto.
  - destruct fuel as [|f]; [lia|]. cbn [scale_loop]. fold step. fold room. rewrite side_put.
    destruct (beyond d (outward d (side d l) step) (side d room)) eqn:B; [eauto|].
    apply beyond_false in B.
    destruct (stationary_total (put d l (outward d (side d l) step)) (env_obs c) P) as (st & E).
    rewrite E. cbn [bind]. destruct (is_nil st); [|eauto].
    rewrite Nat2Z.inj_succ in H. unfold Z.succ in H. rewrite inject_Z_plus in H. change (inject_Z 1) with 1 in H.
    pose proof (out_outward d (side d l) step) as O.
    apply IH; try assumption; try lia.
    + rewrite side_put. lra.
    + destruct n; [|lia]. change (inject_Z (Z.of_nat 0)) with 0 in H. lra.
Qed.

Lemma steps_enough a r : 0 < step -> exists n, r < a + inject_Z (Z.of_nat n) * step.
Proof.
  intro ST. exists (Z.to_nat (Qfloor ((r - a) / step) + 1)).
  set (q := (r - a) / step). assert (E : r - a == q * step) by (unfold q; field; lra).
  pose proof (Qlt_floor q) as L.
  assert (M : (Qfloor q + 1 <= Z.of_nat (Z.to_nat (Qfloor q + 1)))%Z) by lia.
  rewrite Zle_Qle in M. set (m := inject_Z (Z.of_nat _)) in *. clearbody q m. nra.
Qed.

Lemma scale_dir_ends d l : 0 < step ->
  exists n r, forall fuel, (n <= fuel)%nat -> scale_dir c d fuel l = Ok r.
Proof.
  intro ST. unfold scale_dir.
  destruct (stationary_total (put d l (side d (room_limits c))) (env_obs c) P) as (st & E). rewrite E. cbn.
  destruct (is_nil st); [exists O; eauto|].
  destruct (steps_enough (out d (side d l)) (out d (side d room)) ST) as (n & N).
  assert (M : forall fuel l0 r, scale_loop c d fuel l0 = Ok r -> scale_loop c d (S fuel) l0 = Ok r).
  { induction fuel as [|f IH]; intros l0 r H; [discriminate|].
    remember (S f) as sf. cbn [scale_loop]. subst sf. cbn [scale_loop] in H.
    destruct (beyond _ _ _); [exact H|].
    apply bind_ok in H. destruct H as (st' & E' & H). rewrite E'. cbn.
    destruct (is_nil st'); [apply IH, H|exact H]. }
  destruct (scale_loop_ends d n l N ST (S n)) as (r & R); [lia|lia|].
  exists (S n), r. intros fuel F. replace fuel with ((fuel - S n) + S n)%nat by lia.
  induction (fuel - S n)%nat as [|k IHk]; [exact R|]. cbn [Nat.add]. apply M, IHk.
Qed.

Lemma scale_up_ends l : 0 < step ->
  exists n b, forall fuel, (n <= fuel)%nat -> scale_up_border c fuel l = Ok b.
Proof.
  intro ST.
  destruct (scale_dir_ends XPos l ST) as (n1 & s1 & H1).
  destruct (scale_dir_ends XNeg (fst s1) ST) as (n2 & s2 & H2).
  destruct (scale_dir_ends YPos (fst s2) ST) as (n3 & s3 & H3).
  destruct (scale_dir_ends YNeg (fst s3) ST) as (n4 & s4 & H4).
  exists (n1 + n2 + n3 + n4)%nat, (snd s4). intros fuel F. unfold scale_up_border.
  rewrite H1 by lia. cbn. rewrite H2 by lia. cbn. rewrite H3 by lia. cbn. rewrite H4 by lia. reflexivity.
Qed.
End loop.

(* a vehicle without size and coarse steps: the loop does not end *)
Lemma scale_loop_stuck c d l : step_size c == 0 ->
  (forall s, s == side d l -> get_stationary_obstacles (put d l s) (env_obs c) = Ok []) ->
  out d (side d l) <= out d (side d (room_limits c)) ->
  forall fuel, scale_loop c d fuel l = Err OutOfFuel.
Proof.
  intros ST F R fuel.
  assert (G : forall v, v == side d l -> scale_loop c d fuel (put d l v) = Err OutOfFuel).
  { induction fuel as [|f IH]; intros v V; [reflexivity|]. cbn [scale_loop]. rewrite !side_put, !put_put.
    assert (OV : outward d v (step_size c) == side d l).
    { destruct d; cbn; rewrite V, ST; cbn; ring. }
    assert (B : beyond d (outward d v (step_size c)) (side d (room_limits c)) = false).
    { apply beyond_false. destruct d; cbn in *; lra. }
    rewrite B. rewrite (F _ OV). cbn. apply IH, OV. }
  rewrite <- (put_side d l). apply G. reflexivity.
Qed.
