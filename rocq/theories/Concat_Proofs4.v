(** Proofs about concat_splines: one joint, all joints of one signal, all signals. *)
From Coq Require Import Reals Lra Lia List Permutation Arith ZArith.
From Verif Require Import Blossom Spline_Model Spline_Spec Spline_Proofs Spline_Proofs2 Spline_Proofs3 Spline_Proofs5
  Splop_Model Splop_Spec Splop_Proofs Splop_Proofs2 Span_Proofs End_Proofs Contact_Proofs
  Multi_Model Multi_Spec Multi_Proofs Concat_Model Concat_Spec Concat_Proofs Concat_Proofs2 Concat_Proofs3.
Import ListNotations.
Local Open Scope R_scope.

Lemma head_knots_nat : forall p n ks, (p + 1 <= length ks)%nat ->
  head_knots p (Z.of_nat n) ks = firstn (length ks - (p + 1) + n) ks.
Proof.
  intros p n ks L. unfold head_knots, py_prefix.
  destruct (Z.ltb_spec (Z.of_nat (length ks) - (Z.of_nat p + 1) + Z.of_nat n) 0) as [H|H]; [lia|].
  f_equal. lia.
Qed.

Section Join.
Variables (P s : bspline) (p n : nat) (lo tau T : R).
Hypothesis CP : clamped_on (sbasis P) lo tau.
Hypothesis CS : clamped_on (sbasis s) 0 1.
Hypothesis ZP : sized P.
Hypothesis ZS : sized s.
Hypothesis DP : degree (sbasis P) = p.
Hypothesis DS : degree (sbasis s) = p.
Hypothesis HT : 0 < T.
Hypothesis Hn1 : (1 <= n)%nat.
Hypothesis Hn2 : (n <= p + 1)%nat.

Let Q := scale s T tau.
Lemma Q_clamped : clamped_on (sbasis Q) tau (tau + T).
Proof.
  assert (K := scale_clamped (sbasis s) 0 1 T tau HT CS).
  replace (0 * T + tau) with tau in K by ring. replace (1 * T + tau) with (tau + T) in K by ring. exact K.
Qed.
Lemma Q_sized : sized Q.
Proof. apply scale_sized. exact ZS. Qed.

Lemma LP' : (2 * p + 2 <= length (knots (sbasis P)))%nat.
Proof. destruct CP as ((_ & L) & _). rewrite DP in L. exact L. Qed.
Lemma P_last : last (knots (sbasis P)) 0 = tau.
Proof. rewrite nth_last. apply CP. Qed.

Lemma head_last : last (head_knots p (Z.of_nat n) (knots (sbasis P))) 0 = tau.
Proof.
  pose proof LP' as LP. rewrite head_knots_nat by lia. rewrite nth_last.
  assert (LF : length (firstn (length (knots (sbasis P)) - (p + 1) + n) (knots (sbasis P)))
     = (length (knots (sbasis P)) - (p + 1) + n)%nat) by (rewrite firstn_length; lia).
  rewrite LF. rewrite nth_firstn by lia.
  apply (P_end P Q p n lo tau (tau + T) CP Q_clamped DP DS Hn1 Hn2). lia.
Qed.

Lemma tail_scaled : forall sft, tail_knots p (knots (sbasis s)) T sft
  = skipn (p + 1) (knots (sbasis (scale s T sft))).
Proof. intros sft. unfold tail_knots, scale, scale_basis. cbn [sbasis knots]. symmetry. apply skipn_map. Qed.

Lemma concat_basis_joined : concat_basis p (Z.of_nat n) P s T = jbasis P Q p n.
Proof.
  unfold concat_basis. cbv zeta. rewrite head_last. rewrite tail_scaled. pose proof LP' as LP.
  rewrite head_knots_nat by lia. reflexivity.
Qed.
Lemma result_basis_joined :
  mkB (head_knots p (Z.of_nat n) (knots (sbasis P)) ++
       tail_knots p (knots (sbasis s)) T (last (knots (sbasis P)) 0)) p = jbasis P Q p n.
Proof.
  rewrite P_last, tail_scaled. pose proof LP' as LP. rewrite head_knots_nat by lia. reflexivity.
Qed.
Lemma joined_knots_eq : joined_knots p n (knots (sbasis P)) s T = knots (jbasis P Q p n).
Proof.
  unfold joined_knots. rewrite P_last. change (map (fun k => k * T + tau) (skipn (p + 1) (knots (sbasis s))))
    with (tail_knots p (knots (sbasis s)) T tau). rewrite tail_scaled. reflexivity.
Qed.

Theorem join_smooth : forall r, (n <= p)%nat ->
  (forall d, (d + n <= p)%nat -> call (derivative P d) tau = in_seconds s T d 0) ->
  ~ In tau (sites (mkB (joined_knots p n (knots (sbasis P)) s T) p)) ->
  join (Z.of_nat n) P s T tau = Some r ->
  clamped_on (sbasis r) lo (tau + T) /\ sized r /\ degree (sbasis r) = p /\
  knots (sbasis r) = joined_knots p n (knots (sbasis P)) s T /\
  forall d x, (d <= p)%nat -> lo <= x <= tau + T ->
    call (derivative r d) x = if Rle_dec x tau then call (derivative P d) x else in_seconds s T d (x - tau).
Proof.
  intros r Hn AG NT J.
  assert (SC : forall d x, (d <= p)%nat -> call (derivative Q d) x = in_seconds s T d (x - tau)).
  { intros d x Hd. unfold in_seconds, Q.
    rewrite <- (scale_deriv_call s T tau d ((x - tau) / T) HT ltac:(lia) (proj1 CS) ZS).
    f_equal. field. lra. }
  assert (AG' : forall d, (d + n <= p)%nat -> call (derivative P d) tau = call (derivative Q d) tau).
  { intros d Hd. rewrite SC by lia. replace (tau - tau) with 0 by ring. apply AG. exact Hd. }
  rewrite joined_knots_eq in NT. change (mkB (knots (jbasis P Q p n)) p) with (jbasis P Q p n) in NT.
  unfold join in J. rewrite DP in J. cbv zeta in J.
  destruct (Z.eqb_spec (Z.of_nat n) (Z.of_nat p + 1)) as [E|E]; [lia|].
  rewrite concat_basis_joined, result_basis_joined in J.
  destruct (gsolve _ _) as [c|] eqn:G; [|discriminate]. injection J as <-.
  assert (EC := system_solution P Q p n lo tau (tau + T) c CP Q_clamped ZP Q_sized DP DS (conj Hn1 Hn) AG' NT G).
  rewrite EC.
  split; [exact (jb_clamped P Q p n lo tau (tau + T) CP Q_clamped DP DS Hn1 Hn2)|].
  split; [apply span_sized|]. split; [reflexivity|]. split; [symmetry; exact joined_knots_eq|].
  intros d x Hd Hx.
  rewrite <- (SC d x Hd).
  exact (jspline_deriv P Q p n lo tau (tau + T) CP Q_clamped ZP Q_sized DP DS Hn1 Hn2 AG' d x Hd Hx).
Qed.

Theorem join_stacked : forall r, n = (p + 1)%nat -> join (Z.of_nat n) P s T tau = Some r ->
  clamped_on (sbasis r) lo (tau + T) /\ sized r /\ degree (sbasis r) = p /\
  forall x, lo <= x <= tau + T ->
    call r x = if Rle_dec x tau then call P x else in_seconds s T 0 (x - tau).
Proof.
  intros r En J. unfold join in J. rewrite DP in J. cbv zeta in J.
  destruct (Z.eqb_spec (Z.of_nat n) (Z.of_nat p + 1)) as [E|E]; [|lia].
  assert (EB : mkB (knots (sbasis P) ++ tail_knots p (knots (sbasis s)) T (last (knots (sbasis P)) 0)) p
     = jbasis P Q p n).
  { rewrite <- result_basis_joined. pose proof LP' as LP. rewrite head_knots_nat by lia.
    replace (length (knots (sbasis P)) - (p + 1) + n)%nat with (length (knots (sbasis P))) by lia.
    rewrite firstn_all. reflexivity. }
  rewrite EB in J. injection J as <-.
  split; [exact (jb_clamped P Q p n lo tau (tau + T) CP Q_clamped DP DS Hn1 Hn2)|].
  split.
  { unfold sized. cbn [sbasis coeffs]. rewrite (jb_len P Q p n lo tau (tau + T) CP Q_clamped DP DS Hn1 Hn2).
    change (degree (jbasis P Q p n)) with p. rewrite app_length. unfold sized in ZP, ZS. rewrite DP in ZP. rewrite DS in ZS.
    unfold Q, scale, scale_basis. cbn [sbasis knots]. rewrite map_length. pose proof LP' as LP.
    destruct CS as ((_ & L) & _). rewrite DS in L. lia. }
  split; [reflexivity|].
  intros x Hx. change (coeffs s) with (coeffs Q).
  assert (AG : forall d, (d + n <= p)%nat -> call (derivative P d) tau = call (derivative Q d) tau) by (intros; lia).
  rewrite (stacked_call P Q p n lo tau (tau + T) CP Q_clamped ZP Q_sized DP DS Hn1 Hn2 En x Hx).
  destruct (Rle_dec x tau); [reflexivity|].
  assert (K := scale_call s T tau ((x - tau) / T) HT).
  replace ((x - tau) / T * T + tau) with x in K by (field; lra).
  unfold in_seconds, Q. change (derivative s 0) with s. rewrite K. simpl pow. field.
Qed.

(** an evaluation site on the joint: the value there is added twice *)
Theorem join_doubles : forall r, (n <= p)%nat ->
  In tau (sites (mkB (joined_knots p n (knots (sbasis P)) s T) p)) ->
  join (Z.of_nat n) P s T tau = Some r ->
  call r tau = call P tau + call s 0.
Proof.
  intros r Hn IT J.
  rewrite joined_knots_eq in IT. change (mkB (knots (jbasis P Q p n)) p) with (jbasis P Q p n) in IT.
  unfold join in J. rewrite DP in J. cbv zeta in J.
  destruct (Z.eqb_spec (Z.of_nat n) (Z.of_nat p + 1)) as [E|E]; [lia|].
  rewrite concat_basis_joined, result_basis_joined in J. fold Q in J.
  destruct (gsolve _ _) as [c|] eqn:G; [|discriminate]. injection J as <-.
  assert (LEN : forall r, In r (concat_system (jbasis P Q p n) P Q) -> length (fst r) = blen (jbasis P Q p n)).
  { intros r Hr. unfold concat_system in Hr. apply in_map_iff in Hr. destruct Hr as (x & <- & _).
    apply blen_eval. }
  destruct (gsolve_spec _ _ _ LEN G) as [LC U].
  assert (F := proj2 (U c LC) eq_refl). rewrite Forall_forall in F.
  specialize (F (eval_basis (jbasis P Q p n) tau, call P tau + call Q tau)).
  unfold holds_row in F. cbn [fst snd] in F. unfold call at 1. cbn [sbasis coeffs].
  rewrite F.
  - f_equal. unfold Q. rewrite <- (scale_call s T tau 0 HT). f_equal. ring.
  - unfold concat_system. apply in_map_iff. exists tau. split; [reflexivity|exact IT].
Qed.
End Join.

(** ** one signal, all joints *)
Fixpoint concat_one (n : Z) (prev : bspline) (t : R) (rest : list (bspline * R)) : option bspline :=
  match rest with
  | [] => Some prev
  | (s, T) :: rest' =>
    match join n prev s T t with
    | None => None
    | Some r => concat_one n r (t + T) rest'
    end
  end.

Lemma duration_pos : forall l, Forall (fun q : bspline * R => 0 < snd q) l -> 0 <= duration l.
Proof.
  induction l as [|q l IH]; intros H; [unfold duration; simpl; lra|].
  inversion H; subst. change (duration (q :: l)) with (snd q + duration l). specialize (IH H3). lra.
Qed.
Lemma travelled_snoc : forall l s T d x, l <> [] -> Forall (fun q : bspline * R => 0 < snd q) l ->
  travelled (l ++ [(s, T)]) d x = if Rle_dec x (duration l) then travelled l d x
                                  else in_seconds s T d (x - duration l).
Proof.
  induction l as [|[s0 T0] l IH]; intros s T d x NE PO; [congruence|].
  destruct l as [|[s1 T1] l].
  - simpl app. unfold duration. cbn [fold_right snd].
    destruct (Rle_dec x (T0 + 0)) as [H|H].
    + rewrite travelled_head by lra. reflexivity.
    + rewrite travelled_tail by lra. cbn [travelled]. f_equal. ring.
  - inversion PO as [|? ? P0 P1]; subst.
    change (((s0, T0) :: (s1, T1) :: l) ++ [(s, T)]) with ((s0, T0) :: (s1, T1) :: l ++ [(s, T)]).
    change (duration ((s0, T0) :: (s1, T1) :: l)) with (T0 + duration ((s1, T1) :: l)).
    pose proof (duration_pos _ P1) as PD.
    destruct (Rle_dec x T0) as [H|H].
    + rewrite travelled_head by exact H. rewrite (travelled_head s0 T0 _ d x H).
      destruct (Rle_dec x (T0 + duration ((s1, T1) :: l))) as [G|G]; [reflexivity|exfalso]. lra.
    + rewrite travelled_tail by lra. rewrite (travelled_tail s0 T0 (s1, T1) l) by lra.
      assert (K := IH s T d (x - T0) ltac:(discriminate) P1).
      change (((s1, T1) :: l) ++ [(s, T)]) with ((s1, T1) :: l ++ [(s, T)]) in K.
      rewrite K. set (D := duration ((s1, T1) :: l)) in *.
      destruct (Rle_dec (x - T0) D), (Rle_dec x (T0 + D)); try lra; try reflexivity.
      f_equal. ring.
Qed.

Lemma duration_app : forall l1 l2, duration (l1 ++ l2) = duration l1 + duration l2.
Proof.
  induction l1 as [|q l1 IH]; intros l2; [unfold duration; simpl; ring|].
  change (duration ((q :: l1) ++ l2)) with (snd q + duration (l1 ++ l2)).
  change (duration (q :: l1)) with (snd q + duration l1). rewrite IH. ring.
Qed.
Lemma duration_one : forall s T, duration [(s, T)] = T.
Proof. intros. unfold duration. simpl. ring. Qed.

Lemma in_seconds_last : forall l q d, Forall (fun q : bspline * R => 0 < snd q) (l ++ [q]) ->
  travelled (l ++ [q]) d (duration (l ++ [q])) = in_seconds (fst q) (snd q) d (snd q).
Proof.
  intros l [s T] d PO. rewrite duration_app, duration_one. destruct l as [|q0 l].
  - unfold duration. cbn [app travelled fold_right fst snd]. f_equal. ring.
  - apply Forall_app in PO. destruct PO as [P1 P2]. inversion P2; subst. simpl in H1.
    rewrite travelled_snoc; [|discriminate|exact P1].
    destruct (Rle_dec (duration (q0 :: l) + T) (duration (q0 :: l))) as [F|_]; [lra|].
    cbn [fst snd]. f_equal. ring.
Qed.

Lemma meets_tail : forall n l q1 s T r, meets n (l ++ q1 :: (s, T) :: r) ->
  (forall d, (d < n)%nat -> in_seconds (fst q1) (snd q1) d (snd q1) = in_seconds s T d 0).
Proof.
  induction l as [|[s0 T0] l IH]; intros q1 s T r M d Hd.
  - destruct q1 as [s1 T1]. simpl app in M. destruct M as [M _]. apply M. exact Hd.
  - apply (IH q1 s T r); [|exact Hd]. destruct l as [|[s2 T2] l]; simpl app in M.
    + destruct q1 as [s1 T1]. exact (proj2 M).
    + exact (proj2 M).
Qed.

Theorem concat_one_smooth : forall p n rest l q P t r, (1 <= n <= p)%nat ->
  t = duration (l ++ [q]) -> Forall (fun q : bspline * R => 0 < snd q) (l ++ [q]) ->
  clamped_on (sbasis P) 0 t -> sized P -> degree (sbasis P) = p ->
  (forall d x, (d <= p)%nat -> 0 <= x <= t -> call (derivative P d) x = travelled (l ++ [q]) d x) ->
  Forall (fun q => clamped_on (sbasis (fst q)) 0 1 /\ sized (fst q) /\ degree (sbasis (fst q)) = p /\ 0 < snd q) rest ->
  meets (p + 1 - n) (l ++ q :: rest) ->
  clear_joints p n (knots (sbasis P)) rest ->
  concat_one (Z.of_nat n) P t rest = Some r ->
  clamped_on (sbasis r) 0 (duration (l ++ q :: rest)) /\ sized r /\ degree (sbasis r) = p /\
  forall d x, (d <= p)%nat -> 0 <= x <= duration (l ++ q :: rest) ->
    call (derivative r d) x = travelled (l ++ q :: rest) d x.
Proof.
  intros p n rest. induction rest as [|[s T] rest IH]; intros l q P t r Hn Et PO CP ZP DP AG GR M CJ E.
  - simpl in E. injection E as <-. rewrite <- Et. auto.
  - cbn [concat_one] in E. destruct (join (Z.of_nat n) P s T t) as [P'|] eqn:J; [|discriminate].
    inversion GR as [|? ? (CS & ZS & DS & HT) GR']; subst x l0. cbn [fst snd] in *.
    destruct CJ as [NT CJ].
    assert (TP : 0 <= t) by (rewrite Et; apply duration_pos; exact PO).
    assert (AGT : forall d, (d + n <= p)%nat -> call (derivative P d) t = in_seconds s T d 0).
    { intros d Hd. rewrite AG by (try lia; lra).
      rewrite Et. rewrite in_seconds_last by exact PO.
      apply (meets_tail (p + 1 - n) l q s T rest M d). lia. }
    assert (PL : last (knots (sbasis P)) 0 = t) by (rewrite nth_last; apply CP).
    rewrite PL in NT.
    destruct (join_smooth P s p n 0 t T CP CS ZP ZS DP DS HT ltac:(lia) ltac:(lia) P' ltac:(lia) AGT NT J)
      as (C' & Z' & D' & K' & A').
    replace (l ++ q :: (s, T) :: rest) with ((l ++ [q]) ++ (s, T) :: rest) in * by (rewrite <- app_assoc; reflexivity).
    apply (IH (l ++ [q]) (s, T) P' (t + T) r Hn); auto.
    + rewrite (duration_app (l ++ [q])), duration_one, <- Et. reflexivity.
    + apply Forall_app. split; [exact PO|]. constructor; [exact HT|constructor].
    + intros d x Hd Hx. rewrite A' by (auto; lra).
      rewrite travelled_snoc; [|destruct l; discriminate|exact PO]. rewrite <- Et.
      destruct (Rle_dec x t) as [H|H]; [apply AG; auto; lra|reflexivity].
    + rewrite K'. exact CJ.
Qed.

Theorem concat_one_stacked : forall p n rest l q P t r, n = (p + 1)%nat ->
  t = duration (l ++ [q]) -> Forall (fun q : bspline * R => 0 < snd q) (l ++ [q]) ->
  clamped_on (sbasis P) 0 t -> sized P -> degree (sbasis P) = p ->
  (forall x, 0 <= x <= t -> call P x = travelled (l ++ [q]) 0 x) ->
  Forall (fun q => clamped_on (sbasis (fst q)) 0 1 /\ sized (fst q) /\ degree (sbasis (fst q)) = p /\ 0 < snd q) rest ->
  concat_one (Z.of_nat n) P t rest = Some r ->
  clamped_on (sbasis r) 0 (duration (l ++ q :: rest)) /\ sized r /\ degree (sbasis r) = p /\
  forall x, 0 <= x <= duration (l ++ q :: rest) -> call r x = travelled (l ++ q :: rest) 0 x.
Proof.
  intros p n rest. induction rest as [|[s T] rest IH]; intros l q P t r Hn Et PO CP ZP DP AG GR E.
  - simpl in E. injection E as <-. rewrite <- Et. auto.
  - cbn [concat_one] in E. destruct (join (Z.of_nat n) P s T t) as [P'|] eqn:J; [|discriminate].
    inversion GR as [|? ? (CS & ZS & DS & HT) GR']; subst x l0. cbn [fst snd] in *.
    destruct (join_stacked P s p n 0 t T CP CS ZP ZS DP DS HT ltac:(lia) ltac:(lia) P' Hn J)
      as (C' & Z' & D' & A').
    replace (l ++ q :: (s, T) :: rest) with ((l ++ [q]) ++ (s, T) :: rest) in * by (rewrite <- app_assoc; reflexivity).
    apply (IH (l ++ [q]) (s, T) P' (t + T) r Hn); auto.
    + rewrite (duration_app (l ++ [q])), duration_one, <- Et. reflexivity.
    + apply Forall_app. split; [exact PO|]. constructor; [exact HT|constructor].
    + intros x Hx. rewrite A' by lra.
      rewrite travelled_snoc; [|destruct l; discriminate|exact PO]. rewrite <- Et.
      destruct (Rle_dec x t) as [H|H]; [apply AG; auto; lra|reflexivity].
Qed.

Lemma first_scaled : forall s T p, clamped_on (sbasis s) 0 1 -> sized s -> degree (sbasis s) = p -> 0 < T ->
  clamped_on (sbasis (scale s T 0)) 0 T /\ sized (scale s T 0) /\ degree (sbasis (scale s T 0)) = p /\
  forall d x, (d <= p)%nat -> call (derivative (scale s T 0) d) x = in_seconds s T d x.
Proof.
  intros s T p C Z D HT. split; [|split; [apply scale_sized; exact Z|split; [exact D|]]].
  - assert (K := scale_clamped (sbasis s) 0 1 T 0 HT C).
    replace (0 * T + 0) with 0 in K by ring. replace (1 * T + 0) with T in K by ring. exact K.
  - intros d x Hd. unfold in_seconds.
    rewrite <- (scale_deriv_call s T 0 d (x / T) HT ltac:(lia) (proj1 C) Z). f_equal. field. lra.
Qed.

(** ** all signals *)
Lemma join_all_comp : forall m prevs segs T t n' rs, join_all (Some m) prevs segs T t = Some (n', rs) ->
  n' = Some m /\ length rs = length prevs /\
  (length segs = length prevs -> forall i, (i < length prevs)%nat ->
   join m (nth i prevs no_spline) (nth i segs no_spline) T t = Some (nth i rs no_spline)).
Proof.
  intros m prevs. induction prevs as [|P prevs IH]; intros segs T t n' rs H; destruct segs as [|s segs]; simpl in H.
  - injection H as <- <-. repeat split; auto. intros _ i Hi. simpl in Hi. lia.
  - discriminate.
  - injection H as <- <-. split; [reflexivity|]. split; [reflexivity|]. intros L. discriminate L.
  - destruct (_ =? _)%nat; [|discriminate].
    destruct (join m P s T t) as [r|] eqn:J; [|discriminate].
    destruct (join_all (Some m) prevs segs T t) as [[n1 rs1]|] eqn:JA; [|discriminate].
    injection H as <- <-. destruct (IH _ _ _ _ _ JA) as (A & B & C).
    split; [exact A|]. split; [simpl; congruence|].
    intros L i Hi. destruct i as [|i]; [exact J|]. simpl. apply C; simpl in *; lia.
Qed.

Lemma concat_loop_comp : forall m rest prevs t Ts rs k, concat_loop (Some m) prevs t rest Ts = Some rs ->
  length prevs = k -> Forall (fun sg => length sg = k) rest ->
  length rs = k /\ forall i, (i < k)%nat ->
  concat_one m (nth i prevs no_spline) t (component i rest Ts) = Some (nth i rs no_spline).
Proof.
  intros m rest. induction rest as [|sg rest IH]; intros prevs t Ts rs k H L F.
  - simpl in H. destruct Ts; injection H as <-; (split; [exact L|]); intros i Hi; reflexivity.
  - destruct Ts as [|T Ts]; simpl in H; [discriminate|].
    destruct (join_all (Some m) prevs sg T t) as [[n1 prevs']|] eqn:J; [|discriminate].
    inversion F as [|? ? F1 F2]; subst x l.
    destruct (join_all_comp _ _ _ _ _ _ _ J) as (A & B & C). rewrite A in H.
    destruct (IH prevs' (t + T) Ts rs k H ltac:(congruence) F2) as [D E].
    split; [exact D|]. intros i Hi.
    change (component i (sg :: rest) (T :: Ts)) with ((nth i sg no_spline, T) :: component i rest Ts).
    cbn [concat_one]. rewrite (C ltac:(lia) i ltac:(lia)). apply E. exact Hi.
Qed.

Lemma concat_splines_comp : forall n segs Ts rs k, concat_splines segs Ts n = Some rs ->
  (0 < k)%nat -> Forall (fun sg => length sg = k) segs -> (2 <= length segs)%nat ->
  exists m, used_insert n segs Ts = Some m /\
  length rs = k /\ forall i, (i < k)%nat ->
  exists s T rest, component i segs Ts = (s, T) :: rest /\
    concat_one m (scale s T 0) T rest = Some (nth i rs no_spline).
Proof.
  intros n segs Ts rs k H Hk F L2.
  destruct segs as [|sg segs]; [simpl in L2; lia|]. destruct Ts as [|T Ts]; [discriminate|].
  cbn [concat_splines] in H. inversion F as [|? ? F1 F2]; subst x l.
  assert (X : exists m, used_insert n (sg :: segs) (T :: Ts) = Some m /\
     concat_loop (Some m) (map (fun s => scale s T 0) sg) T segs Ts = Some rs).
  { destruct n as [m|]; [exists m; auto|].
    destruct segs as [|sg2 segs]; [simpl in L2; lia|].
    destruct Ts as [|T2 Ts]; [simpl in H; discriminate|].
    inversion F2 as [|? ? F3 F4]; subst x l.
    destruct sg as [|s1 sg]; [simpl in F1; lia|]. destruct sg2 as [|s2 sg2]; [simpl in F3; lia|].
    exists (computed_insert (scale s1 T 0) s2 T2 T). split; [reflexivity|].
    rewrite <- H. reflexivity. }
  destruct X as (m & E & C). exists m. split; [exact E|].
  assert (LM : length (map (fun s => scale s T 0) sg) = k) by (rewrite map_length; exact F1).
  destruct (concat_loop_comp m segs (map (fun s => scale s T 0) sg) T Ts rs k C LM F2) as [A B].
  split; [exact A|]. intros i Hi. exists (nth i sg no_spline), T, (component i segs Ts).
  split; [reflexivity|]. rewrite <- (B i Hi). f_equal.
  rewrite (nth_indep (map (fun s => scale s T 0) sg) no_spline (scale no_spline T 0)) by (rewrite map_length; lia).
  rewrite (map_nth (fun s => scale s T 0)). reflexivity.
Qed.

Lemma component_proper : forall p k segs Ts i, 
  Forall (fun sg => length sg = k /\ Forall (proper p) sg) segs -> Forall (fun T => 0 < T) Ts -> (i < k)%nat ->
  Forall (fun q => proper p (fst q) /\ 0 < snd q) (component i segs Ts).
Proof.
  intros p k segs. induction segs as [|sg segs IH]; intros Ts i F P Hi; [constructor|].
  destruct Ts as [|T Ts]; [constructor|].
  inversion F as [|? ? [F1 F2] F3]; subst x l. inversion P as [|? ? P1 P2]; subst x l.
  change (component i (sg :: segs) (T :: Ts)) with ((nth i sg no_spline, T) :: component i segs Ts).
  constructor; [|apply IH; auto]. split; [|exact P1]. cbn [fst].
  rewrite Forall_forall in F2. apply F2. apply nth_In. lia.
Qed.

Theorem concat_smooth : forall p k n segs Ts m rs i,
  Forall (fun sg => length sg = k /\ Forall (proper p) sg) segs -> Forall (fun T => 0 < T) Ts ->
  (2 <= length segs)%nat -> (i < k)%nat ->
  used_insert n segs Ts = Some (Z.of_nat m) -> (1 <= m <= p)%nat ->
  meets (p + 1 - m) (component i segs Ts) -> clear_segments p m (component i segs Ts) ->
  concat_splines segs Ts n = Some rs ->
  let r := nth i rs no_spline in
  length rs = k /\ clamped_on (sbasis r) 0 (duration (component i segs Ts)) /\ sized r /\
  degree (sbasis r) = p /\
  forall d x, (d <= p)%nat -> 0 <= x <= duration (component i segs Ts) ->
    call (derivative r d) x = travelled (component i segs Ts) d x.
Proof.
  intros p k n segs Ts m rs i F PT L2 Hi U Hm M CJ E r.
  assert (FL : Forall (fun sg : list bspline => length sg = k) segs).
  { eapply Forall_impl; [|exact F]. intros sg H. apply H. }
  destruct (concat_splines_comp n segs Ts rs k E ltac:(lia) FL L2) as (m' & U' & LR & K).
  rewrite U in U'. injection U' as <-.
  destruct (K i Hi) as (s & T & rest & EC & EO).
  assert (G := component_proper p k segs Ts i F PT Hi). rewrite EC in *.
  inversion G as [|? ? [(C1 & C2 & C3) C4] G']; subst x l. cbn [fst snd] in *.
  destruct (first_scaled s T p C1 C2 C3 C4) as (A1 & A2 & A3 & A4).
  assert (ED : T = duration ([] ++ [(s, T)])) by (symmetry; apply duration_one).
  split; [exact LR|].
  apply (concat_one_smooth p m rest [] (s, T) (scale s T 0) T (nth i rs no_spline) Hm ED); auto.
  - constructor; [exact C4|constructor].
  - intros d x Hd _. apply A4. exact Hd.
  - eapply Forall_impl; [|exact G']. intros q [(Q1 & Q2 & Q3) Q4]. auto.
Qed.

Theorem concat_stacked : forall p k n segs Ts rs i,
  Forall (fun sg => length sg = k /\ Forall (proper p) sg) segs -> Forall (fun T => 0 < T) Ts ->
  (2 <= length segs)%nat -> (i < k)%nat ->
  used_insert n segs Ts = Some (Z.of_nat (p + 1)) ->
  concat_splines segs Ts n = Some rs ->
  let r := nth i rs no_spline in
  length rs = k /\ clamped_on (sbasis r) 0 (duration (component i segs Ts)) /\ sized r /\
  degree (sbasis r) = p /\
  forall x, 0 <= x <= duration (component i segs Ts) ->
    call r x = travelled (component i segs Ts) 0 x.
Proof.
  intros p k n segs Ts rs i F PT L2 Hi U E r.
  assert (FL : Forall (fun sg : list bspline => length sg = k) segs).
  { eapply Forall_impl; [|exact F]. intros sg H. apply H. }
  destruct (concat_splines_comp n segs Ts rs k E ltac:(lia) FL L2) as (m' & U' & LR & K).
  rewrite U in U'. injection U' as <-.
  destruct (K i Hi) as (s & T & rest & EC & EO).
  assert (G := component_proper p k segs Ts i F PT Hi). rewrite EC in *.
  inversion G as [|? ? [(C1 & C2 & C3) C4] G']; subst x l. cbn [fst snd] in *.
  destruct (first_scaled s T p C1 C2 C3 C4) as (A1 & A2 & A3 & A4).
  assert (ED : T = duration ([] ++ [(s, T)])) by (symmetry; apply duration_one).
  split; [exact LR|].
  apply (concat_one_stacked p (p + 1) rest [] (s, T) (scale s T 0) T (nth i rs no_spline) eq_refl ED); auto.
  - constructor; [exact C4|constructor].
  - intros x Hx. apply (A4 0%nat x). lia.
  - eapply Forall_impl; [|exact G']. intros q [(Q1 & Q2 & Q3) Q4]. auto.
Qed.

(** a single segment *)
Theorem concat_single : forall p n sg T rs, Forall (proper p) sg -> 0 < T ->
  concat_splines [sg] [T] n = Some rs ->
  length rs = length sg /\ forall i, (i < length sg)%nat -> forall d x, (d <= p)%nat ->
    call (derivative (nth i rs no_spline) d) x = in_seconds (nth i sg no_spline) T d x.
Proof.
  intros p n sg T rs F HT E. cbn [concat_splines concat_loop] in E. injection E as <-.
  split; [apply map_length|]. intros i Hi d x Hd.
  rewrite (nth_indep (map (fun s => scale s T 0) sg) no_spline (scale no_spline T 0)) by (rewrite map_length; lia).
  rewrite (map_nth (fun s => scale s T 0)).
  rewrite Forall_forall in F. destruct (F _ (nth_In sg no_spline Hi)) as (C & Z & D).
  apply (first_scaled _ T p C Z D HT). exact Hd.
Qed.
