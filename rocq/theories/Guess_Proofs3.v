(** What get_init_spline_value returns. *)
From Coq Require Import String Reals List Arith Lia Lra Ratan.
From Verif Require Import Spline_Model Spline_Spec Splop_Spec Lift_Spec.
From Verif Require Import Guess_Model Guess_Spec Guess_Proofs Guess_Proofs2.
From Verif Require Angle_Model Geom_Model Geom_Spec Geom_Proofs3.
Import ListNotations.
Local Open Scope R_scope.
Local Notation length := List.length.

Lemma along_lines : forall b d p q, good_basis b -> along b (lines b d p q) d p q (curve b (ramp b 0 1) 0).
Proof.
  intros b d p q G. split; [unfold lines; rewrite map_length, seq_length; reflexivity|]. intros k x K I. unfold lines.
  rewrite (nth_indep _ [] ((fun k => ramp b (p k) (q k)) 0%nat)) by (rewrite map_length, seq_length; exact K).
  rewrite (map_nth (fun k => ramp b (p k) (q k))), seq_nth by exact K. apply ramp_curve; auto.
Qed.
Lemma held_columns : forall b d p q k, (k < d)%nat -> nth k (map (fun k => held b (p k) (q k)) (seq 0 d)) [] = held b (p k) (q k).
Proof.
  intros b d p q k K. rewrite (nth_indep _ [] ((fun k => held b (p k) (q k)) 0%nat)) by (rewrite map_length, seq_length; exact K).
  rewrite (map_nth (fun k => held b (p k) (q k))), seq_nth by exact K. reflexivity.
Qed.
Lemma along_held : forall b d p q, good_basis b -> roomy b ->
  along b (map (fun k => held b (p k) (q k)) (seq 0 d)) d p q (curve b (held b 0 1) 0).
Proof.
  intros b d p q G H. split; [rewrite map_length, seq_length; reflexivity|]. intros k x K I.
  rewrite held_columns by exact K. apply held_curve; auto.
Qed.

Theorem guess_straight : forall c d b s g, positions c d -> good_basis b -> (c = Quadrotor -> roomy b) ->
  exists a f, init_value (Single c b (Some 1%nat) s g) None = Ok (GList [a]) /\ sweep f /\ along b (columns_of a) d s g f.
Proof.
  intros c d b s g P G Q. destruct P; cbn [init_value single_value].
  - exists (A1 (ramp b (s 0%nat) (g 0%nat))), (curve b (ramp b 0 1) 0). split; [reflexivity|]. split; [apply ramp_sweep, G|].
    exact (along_lines b 1 s g G).
  - eexists _, _. split; [reflexivity|]. split; [apply ramp_sweep, G|]. exact (along_lines b 2 s g G).
  - eexists _, _. split; [reflexivity|]. split; [apply ramp_sweep, G|]. exact (along_lines b 3 s g G).
  - specialize (Q eq_refl). assert (Q' := Q). unfold roomy in Q'. destruct (Nat.ltb_spec (rows b) (2 * degree b)); [lia|].
    eexists _, _. split; [reflexivity|]. split; [apply (held_sweep b G Q)|]. exact (along_held b 2 s g G Q).
  - eexists _, _. split; [reflexivity|]. split; [apply ramp_sweep, G|]. exact (along_lines b 3 s g G).
Qed.

Theorem guess_rests : forall b s g, good_basis b -> roomy b ->
  exists a, init_value (Single Quadrotor b (Some 1%nat) s g) None = Ok (GList [a]) /\
  forall k o, (k < 2)%nat -> (1 <= o <= degree b)%nat ->
    curve b (nth k (columns_of a) []) o 0 = 0 /\ curve b (nth k (columns_of a) []) o 1 = 0.
Proof.
  intros b s g G Q. assert (Q' := Q). unfold roomy in Q'. cbn [init_value single_value]. destruct (Nat.ltb_spec (rows b) (2 * degree b)); [lia|].
  eexists. split; [reflexivity|]. intros k o K O. unfold columns_of. rewrite held_columns by exact K. apply held_rests; auto.
Qed.

Lemma atan_tan_id : forall x, - (PI / 2) < x < PI / 2 -> atan (tan x) = x.
Proof.
  intros x H. pose proof (atan_bound (tan x)) as B. apply tan_is_inj; [lra|lra|]. apply tan_atan.
Qed.
Lemma atan_mono : forall x y, x <= y -> atan x <= atan y.
Proof. intros x y [H| ->]; [left; apply atan_increasing, H|lra]. Qed.

Theorem guess_angle : forall c k i j b s g, angles c k i j -> good_basis b -> - PI < s i < PI -> - PI < g j < PI ->
  exists a, init_value (Single c b (Some 1%nat) s g) None = Ok (GList [a]) /\
    (forall x, 0 <= x <= 1 -> curve b (nth 0 (columns_of a) []) 0 x = 0) /\
    let angle x := 2 * atan (curve b (nth k (columns_of a) []) 0 x) in
    angle 0 = s i /\ angle 1 = g j /\
    (forall x y, 0 <= x -> x <= y -> y <= 1 ->
       (s i <= g j -> angle x <= angle y) /\ (g j <= s i -> angle y <= angle x)).
Proof.
  intros c k i j b s g A G S T. destruct (ramp_sweep b G) as (F0 & F1 & FM).
  assert (K : exists cs, init_value (Single c b (Some 1%nat) s g) None = Ok (GList [A2 (rows b) (flat b 0 :: cs)]) /\
              nth k (flat b 0 :: cs) [] = ramp b (half_tan (s i)) (half_tan (g j))).
  { destruct A; cbn [init_value single_value]; eexists; (split; [reflexivity|reflexivity]). }
  destruct K as (cs & E & N). exists (A2 (rows b) (flat b 0 :: cs)). split; [exact E|]. unfold columns_of. split.
  - intros x I. cbn [nth]. apply flat_curve; auto.
  - rewrite N. cbv zeta.
    assert (H0 : 2 * atan (half_tan (s i)) = s i) by (unfold half_tan; rewrite atan_tan_id; lra).
    assert (H1 : 2 * atan (half_tan (g j)) = g j) by (unfold half_tan; rewrite atan_tan_id; lra).
    split; [rewrite ramp_curve by (auto; lra); rewrite F0; replace (half_tan (s i) + 0 * (half_tan (g j) - half_tan (s i))) with (half_tan (s i)) by ring; exact H0|].
    split; [rewrite ramp_curve by (auto; lra); rewrite F1; replace (half_tan (s i) + 1 * (half_tan (g j) - half_tan (s i))) with (half_tan (g j)) by ring; exact H1|].
    intros x y X XY Y. rewrite (ramp_curve b _ _ x), (ramp_curve b _ _ y) by (auto; lra). specialize (FM x y X XY Y).
    assert (TM : s i <= g j -> half_tan (s i) <= half_tan (g j)).
    { intros [L|L]; [|rewrite L; lra]. left. unfold half_tan. apply tan_increasing; lra. }
    assert (TM' : g j <= s i -> half_tan (g j) <= half_tan (s i)).
    { intros [L|L]; [|rewrite L; lra]. left. unfold half_tan. apply tan_increasing; lra. }
    split; intros L; apply Rmult_le_compat_l; try lra; apply atan_mono; [specialize (TM L)|specialize (TM' L)]; nra.
Qed.

Theorem guess_orient : forall b n s g, good_basis b ->
  exists a, init_value (Single HolonomicOrient b n s g) None = Ok (GList [a]) /\
    along b (firstn 2 (columns_of a)) 2 s g (curve b (ramp b 0 1) 0) /\
    forall x, 0 <= x <= 1 -> curve b (nth 2 (columns_of a) []) 0 x = 0.
Proof.
  intros b n s g G. cbn [init_value single_value]. eexists. split; [reflexivity|]. split; [exact (along_lines b 2 s g G)|].
  intros x I. cbn. apply flat_curve; auto.
Qed.

(* several segments *)
Lemma legs_spec : forall b ps p j a, good_basis b -> nth_error (legs b p ps) j = Some a ->
  a = A2 (rows b) (lines b 2 (nth j (p :: ps) p) (nth j ps p)).
Proof.
  intros b ps. induction ps as [|q r IH]; intros p j a G H; [destruct j; discriminate|].
  destruct j as [|j]; cbn [legs nth_error] in H.
  - injection H as <-. reflexivity.
  - specialize (IH q j a G H). rewrite IH. change (nth (S j) (p :: q :: r) p) with (nth j (q :: r) p). change (nth (S j) (q :: r) p) with (nth j r p).
    assert (J : (j < length r)%nat).
    { assert (E : length (legs b q r) = length r) by (clear; revert q; induction r as [|z r IHr]; intros q; cbn [legs length]; auto).
      rewrite <- E. apply nth_error_Some. rewrite H. discriminate. }
    rewrite (nth_indep (q :: r) q p) by (cbn [length]; lia). rewrite (nth_indep r q p) by exact J. reflexivity.
Qed.
Lemma legs_length : forall b ps p, length (legs b p ps) = length ps.
Proof. intros b ps. induction ps as [|q r IH]; intros p; cbn [legs length]; auto. Qed.
Theorem guess_segments : forall b n s g via, good_basis b -> n <> 1%nat ->
  exists l f, init_value (Single Holonomic b (Some n) s g) (Some via) = Ok (GList l) /\ sweep f /\
    length l = S (length via) /\
    forall j a, nth_error l j = Some a -> along b (columns_of a) 2 (corner s via g j) (corner s via g (S j)) f.
Proof.
  intros b n s g via G N. exists (legs b s (map vec via ++ [g])), (curve b (ramp b 0 1) 0).
  split; [cbn [init_value single_value]; destruct n as [|[|n]]; [reflexivity|congruence|reflexivity]|].
  split; [apply ramp_sweep, G|]. split; [rewrite legs_length, app_length, map_length; cbn; lia|].
  intros j a H. pose proof (legs_spec _ _ _ _ _ G H) as E. subst a. cbn [columns_of].
  assert (J : (j < length (map vec via ++ [g]))%nat) by (rewrite <- (legs_length b _ s); apply nth_error_Some; rewrite H; discriminate).
  unfold corner. rewrite (nth_indep (s :: map vec via ++ [g]) s g) by (cbn [length]; lia).
  change (nth (S j) (s :: map vec via ++ [g]) g) with (nth j (map vec via ++ [g]) g).
  rewrite (nth_indep (map vec via ++ [g]) s g) by lia. apply along_lines, G.
Qed.

(* shapes *)
Lemma lines_in : forall b d p q v, In v (lines b d p q) -> length v = rows b.
Proof. intros b d p q v H. apply in_map_iff in H. destruct H as (k & <- & _). apply ramp_length. Qed.
Lemma lines_len : forall b d p q, length (lines b d p q) = d.
Proof. intros. unfold lines. rewrite map_length, seq_length. reflexivity. Qed.
Lemma legs_shape : forall b ps p, Forall (shaped (rows b) 2) (legs b p ps).
Proof.
  intros b ps. induction ps as [|q r IH]; intros p; cbn [legs]; constructor; [|apply IH].
  split; [reflexivity|]. split; [intros v Hv; eapply lines_in; exact Hv|reflexivity].
Qed.
Theorem guess_shape : forall c b n s g sub l, init_value (Single c b n s g) sub = Ok (GList l) ->
  Forall (shaped (rows b) (n_spl c)) l /\ (c <> Holonomic \/ n = Some 1%nat -> length l = 1%nat).
Proof.
  intros c b n s g sub l H. cbn [init_value] in H.
  assert (ONE : forall a : arr, shaped (rows b) (n_spl c) a -> Forall (shaped (rows b) (n_spl c)) [a] /\ (c <> Holonomic \/ n = Some 1%nat -> length [a] = 1%nat)).
  { intros a A. split; [constructor; [exact A|constructor]|reflexivity]. }
  destruct c; cbn [single_value] in H.
  - destruct n as [[|[|n]]|]; try discriminate; [destruct sub; [|discriminate]| |destruct sub; [|discriminate]]; injection H as <-; try (apply ONE; split; [reflexivity|]; split; [intros v Hv; eapply lines_in; exact Hv|reflexivity]).
    + split; [apply legs_shape|intros [D|D]; congruence].
    + split; [apply legs_shape|intros [D|D]; congruence].
  - destruct sub; [discriminate|]. injection H as <-. apply ONE. split; [reflexivity|]. split; [|exact Logic.I]. intros v [<-|[]]. apply ramp_length.
  - destruct sub; [discriminate|]. injection H as <-. apply ONE. split; [reflexivity|]. split; [intros v Hv; eapply lines_in; exact Hv|reflexivity].
  - destruct sub; [discriminate|]. injection H as <-. apply ONE. split; [reflexivity|]. split; [|reflexivity]. intros v [<-|[<-|[<-|[]]]]; [apply ramp_length|apply ramp_length|apply flat_length].
  - destruct sub; [discriminate|]. injection H as <-. apply ONE. split; [reflexivity|]. split; [|reflexivity]. intros v [<-|[<-|[]]]; [apply flat_length|apply ramp_length].
  - destruct sub; [discriminate|]. injection H as <-. apply ONE. split; [reflexivity|]. split; [|reflexivity]. intros v [<-|[<-|[]]]; [apply flat_length|apply ramp_length].
  - destruct sub; [discriminate|]. injection H as <-. apply ONE. split; [reflexivity|]. split; [|reflexivity]. intros v [<-|[<-|[]]]; [apply flat_length|apply ramp_length].
  - destruct sub; [discriminate|]. destruct (Nat.ltb_spec (rows b) (2 * degree b)); [discriminate|]. injection H as <-. apply ONE.
    split; [reflexivity|]. split; [|reflexivity]. intros v [<-|[<-|[]]]; apply held_length; lia.
  - destruct sub; [discriminate|]. injection H as <-. apply ONE. split; [reflexivity|]. split; [|reflexivity].
    intros v [<-|[<-|[<-|[]]]]; [apply flat_length|apply ramp_length|apply ramp_length].
  - destruct sub; [discriminate|]. injection H as <-. apply ONE. split; [reflexivity|]. split; [intros v Hv; eapply lines_in; exact Hv|reflexivity].
  - discriminate.
Qed.
