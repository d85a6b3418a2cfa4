(** Several vehicles in one problem are kept apart. *)
From Coq Require Import Reals List Arith Lia Lra String Bool.
From Verif Require Import Spline_Model Spline_Spec Splop_Spec Vehicle_Model Vehicle_Spec Lift_Model Lift_Spec Lift_Proofs Lift_Proofs2 Lift_Proofs3 Geom_Spec
  Team_Model.
From Verif Require Geom_Proofs4 Geom_Model Geom_Proofs Opti_Model.
Import ListNotations.
Local Open Scope list_scope.
Local Notation length := List.length.
Local Open Scope R_scope.

Lemma couples_all : forall vs v w, In v vs -> In w vs -> m_label v <> m_label w -> In (v, w) (couples vs) \/ In (w, v) (couples vs).
Proof.
  induction vs as [|a vs IH]; intros v w Hv Hw N; [destruct Hv|]. cbn [couples].
  destruct Hv as [<-|Hv], Hw as [<-|Hw].
  - congruence.
  - left. apply in_or_app. left. apply in_map. apply filter_In. split; [exact Hw|].
    apply negb_true_iff. apply String.eqb_neq. exact N.
  - right. apply in_or_app. left. apply in_map. apply filter_In. split; [exact Hv|].
    apply negb_true_iff. apply String.eqb_neq. congruence.
  - destruct (IH v w Hv Hw N); [left|right]; apply in_or_app; right; assumption.
Qed.
Lemma couples_in : forall vs v w, In (v, w) (couples vs) -> In v vs /\ In w vs /\ m_label v <> m_label w.
Proof.
  induction vs as [|a vs IH]; intros v w H; [destruct H|]. cbn [couples] in H. apply in_app_or in H as [H|H].
  - apply in_map_iff in H as (x & E & H). injection E as <- <-. apply filter_In in H as [H N].
    apply negb_true_iff, String.eqb_neq in N. cbn. auto.
  - destruct (IH v w H) as (A & B & C). cbn. auto.
Qed.
Lemma gather_some : forall A (l : list (option (list A))) r, gather l = Some r ->
  forall o, In o l -> exists x, o = Some x /\ incl x r.
Proof.
  intros A l. induction l as [|a l IH]; intros r H o Ho; [destruct Ho|].
  cbn [gather] in H. destruct a as [x|]; [|discriminate]. destruct (gather l) as [y|] eqn:G; [|discriminate].
  injection H as <-. destruct Ho as [<-|Ho].
  - exists x. split; [reflexivity|]. intros e He. apply in_or_app. auto.
  - destruct (IH y eq_refl o Ho) as (z & E & I). exists z. split; [exact E|]. intros e He. apply in_or_app. right. auto.
Qed.
Lemma gather_none : forall A (l : list (option (list A))), gather l = None <-> In None l.
Proof.
  intros A l. induction l as [|a l IH]; cbn [gather]; [split; [discriminate|intros []]|].
  destruct a as [x|].
  - destruct (gather l) as [y|].
    + split; [discriminate|]. intros [H|H]; [discriminate|]. apply IH in H. discriminate.
    + split; [intros _; right; apply IH; reflexivity|reflexivity].
  - split; [left; reflexivity|reflexivity].
Qed.
Lemma in_numbered : forall A (l : list A) x n, In x l -> exists k, In (k, x) (combine (seq n (length l)) l).
Proof.
  intros A l x. induction l as [|a l IH]; intros n H; [destruct H|]. cbn [length seq combine]. destruct H as [<-|H].
  - exists n. left. reflexivity.
  - destruct (IH (S n) H) as (k & K). exists k. right. exact K.
Qed.
Lemma solved_incl : forall tol X l l', incl l l' -> solved tol X l' -> solved tol X l.
Proof. intros tol X l l' I S c Hc. apply S. apply I. exact Hc. Qed.

Section T.
Variable var : string -> string -> nat -> nat.
Variable env : string.
Variable n_dim : nat.

Lemma pair_00 : forall v w, (1 <= m_shapes v)%nat -> (1 <= m_shapes w)%nat -> In (0%nat, 0%nat) (shape_pairs v w).
Proof.
  intros v w Hv Hw. unfold shape_pairs. apply in_flat_map. exists 0%nat. split; [apply in_seq; lia|].
  apply in_map. apply in_seq. lia.
Qed.
Lemma hyp_first : forall idx vs v w, In (v, w) (couples vs) -> (1 <= m_shapes v)%nat -> (1 <= m_shapes w)%nat ->
  In (plane var env n_dim idx v 0 w 0) (hyps var env n_dim idx vs (m_label v) 0).
Proof.
  intros idx vs v w H Hv Hw. unfold hyps. apply in_flat_map. exists (v, w). split; [exact H|]. cbn [fst snd].
  apply in_flat_map. exists (0%nat, 0%nat). split; [apply pair_00; assumption|]. cbn [fst snd].
  apply in_or_app. left. rewrite String.eqb_refl. cbn. auto.
Qed.
Lemma hyp_second : forall idx vs v w, In (v, w) (couples vs) -> (1 <= m_shapes v)%nat -> (1 <= m_shapes w)%nat ->
  In (opposite (plane var env n_dim idx v 0 w 0)) (hyps var env n_dim idx vs (m_label w) 0).
Proof.
  intros idx vs v w H Hv Hw. unfold hyps. apply in_flat_map. exists (v, w). split; [exact H|]. cbn [fst snd].
  apply in_flat_map. exists (0%nat, 0%nat). split; [apply pair_00; assumption|]. cbn [fst snd].
  apply in_or_app. right. rewrite String.eqb_refl. cbn. auto.
Qed.
Lemma norm_there : forall idx vs v w, In (v, w) (couples vs) -> (1 <= m_shapes v)%nat -> (1 <= m_shapes w)%nat ->
  In (le0 (norm_of (plane var env n_dim idx v 0 w 0))) (norm_cons var env n_dim idx vs).
Proof.
  intros idx vs v w H Hv Hw. unfold norm_cons. apply in_flat_map. exists (v, w). split; [exact H|]. cbn [fst snd].
  apply in_map_iff. exists (0%nat, 0%nat). split; [reflexivity|]. apply pair_00; assumption.
Qed.

(* what the solver gets for the pair (v, w) *)
Lemma inter_pair : forall n_seg vs cs idx v w, inter var env n_dim n_seg vs = Some cs -> (idx < n_seg)%nat ->
  In (v, w) (couples vs) -> (1 <= m_shapes v)%nat -> (1 <= m_shapes w)%nat ->
  let h := plane var env n_dim idx v 0 w 0 in
  In (le0 (norm_of h)) cs /\
  exists k l, incl (slack_cons var v k) cs /\ incl (side_cons var idx v k h) cs /\
              incl (slack_cons var w l) cs /\ incl (side_cons var idx w l (opposite h)) cs.
Proof.
  intros n_seg vs cs idx v w HI Hi Hp Hv Hw h. unfold inter in HI.
  destruct (gather_some _ _ _ HI (inter_seg var env n_dim idx vs)) as (ci & E & Ii).
  { apply in_map_iff. exists idx. split; [reflexivity|]. apply in_seq. lia. }
  unfold inter_seg in E. destruct (forallb _ (couples vs)); [|discriminate].
  match type of E with match ?g with _ => _ end = _ => destruct g as [cv|] eqn:G; [|discriminate] end. injection E as E. subst ci.
  assert (V : forall u k g, In u vs -> In (k, g) (combine (seq 0 (length (hyps var env n_dim idx vs (m_label u) 0))) (hyps var env n_dim idx vs (m_label u) 0)) ->
    (1 <= m_shapes u)%nat -> incl (slack_cons var u k ++ side_cons var idx u k g) cs).
  { intros u k g Hu Hk Hs.
    destruct (gather_some _ _ _ G (veh_cons var idx u (hyps var env n_dim idx vs (m_label u) 0))) as (x & E & Ix).
    { apply in_map_iff. exists u. split; [reflexivity|exact Hu]. }
    unfold veh_cons in E. destruct (m_shapes u) as [|[|n]]; [lia| |discriminate]. injection E as <-.
    intros e He. apply Ii. apply in_or_app. right. apply Ix. apply in_flat_map. exists (k, g). split; [exact Hk|exact He]. }
  destruct (couples_in vs v w Hp) as (Iv & Iw & _).
  split. { apply Ii. apply in_or_app. left. apply norm_there; assumption. }
  destruct (in_numbered _ _ _ 0 (hyp_first idx vs v w Hp Hv Hw)) as (k & Hk).
  destruct (in_numbered _ _ _ 0 (hyp_second idx vs v w Hp Hv Hw)) as (l & Hl).
  exists k, l. pose proof (V v k _ Iv Hk Hv) as A. pose proof (V w l _ Iw Hl Hw) as B.
  split; [|split; [|split]]; intros e He; [apply A|apply A|apply B|apply B]; apply in_or_app; auto.
Qed.

(* the slack is between 0 and the safety distance *)
Lemma slack_range : forall tol X v k tau, 0 <= tol -> (forall l n c, on_unit (X (var l n c))) -> 0 <= tau <= 1 ->
  solved tol X (slack_cons var v k) -> 0 <= sval (jets X tau) (slack var v k) <= Rmax 0 (m_sd v).
Proof.
  intros tol X v k tau T U I. unfold slack_cons, slack. destruct (Rlt_dec 0 (m_sd v)) as [P|N]; intros Sv.
  - set (e := SV (var (m_label v) (eps_name 0 k) 0) 0) in *.
    assert (F : fits X e) by (split; [apply U|lia]).
    assert (H : holds (jets X tau) (eps_cons (m_sd v) e)).
    { apply (lift_plain tol); auto. intros d [<-|[<-|[]]]; cbn [le0 cexpr fits mentions plain]; repeat split; auto; apply U || lia || reflexivity. }
    assert (A := H _ (or_introl eq_refl)). assert (B := H _ (or_intror (or_introl eq_refl))).
    cbn [le0 cexpr clo chi sval] in A, B. rewrite Rmax_right by lra. cbn [sval] in *. lra.
  - cbn [sval]. rewrite Rmax_left by lra. lra.
Qed.
Lemma slack_fits : forall X v k, (forall l n c, on_unit (X (var l n c))) -> fits X (slack var v k).
Proof. intros X v k U. unfold slack. destruct (Rlt_dec 0 (m_sd v)); [split; [apply U|lia]|exact I]. Qed.
End T.
