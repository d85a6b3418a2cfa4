(** Sampling: splev gives the values of the spline. *)
From Coq Require Import Reals Lra Lia List Arith.
From Verif Require Import Spline_Model Spline_Spec Spline_Proofs Spline_Proofs2 Blossom Span_Proofs Splop_Spec Loop_Model.
Import ListNotations.
Local Open Scope R_scope.

Lemma deboor_bl : forall ks c p x J m, (m <= p)%nat -> (p <= J)%nat ->
  bl (repeat x m) (fun i => nth (J - m + i) ks 0) (fun i => de_boor ks c p x (p - m) (J - m + i))
  = de_boor ks c p x p J.
Proof.
  intros ks c p x J m. induction m as [|m IH]; intros Hm Hp.
  - cbn [repeat bl]. rewrite !Nat.sub_0_r, Nat.add_0_r. reflexivity.
  - cbn [repeat bl]. rewrite repeat_length. rewrite <- IH by lia.
    apply bl_ext; rewrite repeat_length.
    + intros i Hi. replace (p - m)%nat with (S (p - S m)) by lia. cbn [de_boor]. unfold dbstep.
      replace (J - m + i)%nat with (J - S m + (i + 1))%nat by lia.
      replace (J - S m + (i + 1) + p - (p - S m))%nat with (J - S m + (i + m + 2))%nat by lia.
      replace (J - S m + (i + 1) - 1)%nat with (J - S m + i)%nat by lia. reflexivity.
    + intros i Hi. unfold sh. f_equal. lia.
Qed.

Lemma deboor_piece : forall s x J, (degree (sbasis s) <= J)%nat ->
  de_boor (knots (sbasis s)) (coeffs s) (degree (sbasis s)) x (degree (sbasis s)) J
  = piece (degree (sbasis s)) (kn (sbasis s)) (cf s) J (repeat x (degree (sbasis s))).
Proof.
  intros s x J H. rewrite <- (deboor_bl _ _ _ _ _ (degree (sbasis s))) by lia. unfold piece.
  apply bl_ext.
  - intros i Hi. rewrite Nat.sub_diag. cbn [de_boor]. rewrite shn_spec. reflexivity.
  - intros i Hi. rewrite shn_spec. reflexivity.
Qed.

Lemma find_spec : forall ks x fuel j, (j <= find_interval ks x j fuel <= j + fuel)%nat /\
  (find_interval ks x j fuel = j \/ nth (find_interval ks x j fuel) ks 0 <= x) /\
  (find_interval ks x j fuel = (j + fuel)%nat \/ x < nth (find_interval ks x j fuel + 1) ks 0).
Proof.
  induction fuel as [|f IH]; intros j; cbn [find_interval].
  - repeat split; try lia.
  - destruct (Rleb (nth (j + 1) ks 0) x) eqn:E.
    + apply Rleb_true in E. destruct (IH (j + 1)%nat) as [A [B C]]. repeat split; try lia.
      * destruct B as [B|B]; [right; rewrite B; exact E|right; exact B].
      * destruct C as [C|C]; [left; lia|right; exact C].
    + apply Rleb_false in E. repeat split; try lia. right. exact E.
Qed.

Theorem splev_call : forall s lo hi x, clamped_on (sbasis s) lo hi -> sized s -> lo <= x <= hi ->
  (lo < x < hi -> mult_le (sbasis s) x (degree (sbasis s))) -> splev s x = call s x.
Proof.
  intros s lo hi x [[ND LEN] [[C0 [C1 [C2 C3]]] [LO HI]]] SZ Hx M.
  set (b := sbasis s) in *. set (p := degree b) in *. set (ks := knots b) in *.
  unfold splev. fold b p ks.
  destruct (find_spec ks x (length ks - 2 * p - 2) p) as [A [B C]].
  set (J := find_interval ks x p (length ks - 2 * p - 2)) in *.
  assert (DB := deboor_piece s x J). fold b p ks in DB. rewrite DB by lia. clear DB.
  assert (JL : (J + p + 1 < length ks)%nat) by lia.
  assert (KL : nth J ks 0 <= x).
  { destruct B as [B|B]; [|exact B]. rewrite B. rewrite <- C0. fold ks in LO. rewrite LO. lra. }
  assert (KR : x <= nth (J + 1) ks 0 /\ nth J ks 0 < nth (J + 1) ks 0).
  { destruct C as [C|C]; [|split; lra].
    assert (J = length ks - p - 2)%nat by lia.
    replace (J + 1)%nat with (length ks - p - 1)%nat by lia. rewrite C1. rewrite HI in *.
    split; [lra|]. rewrite H. rewrite <- C1. exact C3. }
  destruct KR as [KR KP].
  destruct (Rle_lt_or_eq_dec _ _ KL) as [L|L].
  - (* inside the interval *)
    symmetry. apply (call_piece s x J ND SZ). split; [exact (proj1 A)|]. split; [exact JL|]. split; [exact KP|].
    left. split; [exact L|exact KR].
  - destruct (Rle_lt_or_eq_dec lo x (proj1 Hx)) as [Q|Q].
    + assert (XH : x < hi).
      { rewrite L in KP.
        assert (nth (J + 1) ks 0 <= nth (length ks - 1) ks 0) by (apply ND; fold ks; lia). rewrite HI in H. lra. }
      destruct (active_exists b x) as [J0 AC].
      { split; auto. }
      { left. unfold dom_left, dom_right. fold p ks. rewrite <- C0, C1, LO, HI. lra. }
      destruct AC as [G1 [G2 [G3 G4]]]. fold p ks in G1, G2.
      assert (X0 : kn b J0 < x <= kn b (J0 + 1)).
      { destruct G4 as [G4|[G4 [G5 _]]]; [exact G4|]. exfalso.
        unfold kn in G4, G5. fold ks in G4, G5. rewrite <- G5, LO in G4. lra. }
      assert (XJ : (J0 < J)%nat).
      { destruct (le_lt_dec J J0); [|lia]. exfalso.
        assert (nth J ks 0 <= nth J0 ks 0) by (apply ND; fold ks; lia). unfold kn in X0. fold ks in X0. lra. }
      assert (XE : kn b (J0 + 1) = x).
      { apply Rle_antisym; [|apply X0]. rewrite <- L. unfold kn. fold ks. apply ND; fold ks; lia. }
      destruct (next_interval b J0 x ND G1 XE) as [m [M1 [M2 [M3 M4]]]].
      { unfold dom_right. fold p ks. rewrite C1, HI. exact XH. }
      { fold p ks. lia. }
      assert (JE : J = (J0 + m)%nat).
      { destruct (lt_eq_lt_dec J (J0 + m)) as [[Z|Z]|Z]; [|exact Z|].
        - exfalso. assert (kn b (J + 1) = x) by (apply M3; lia). unfold kn in H. fold ks in H. lra.
        - exfalso. assert (nth (J0 + m + 1) ks 0 <= nth J ks 0) by (apply ND; fold ks; lia).
          unfold kn in M4. fold ks in M4. lra. }
      assert (MP : (m <= p)%nat).
      { destruct (le_lt_dec m p); auto. exfalso. apply (M (conj Q XH) (J0 + 1)%nat).
        - fold b p ks. lia.
        - fold b p ks. split; [apply (M3 (J0 + 1)%nat); lia|apply (M3 (J0 + 1 + p)%nat); lia]. }
      rewrite (call_piece s x J0 ND SZ) by (repeat split; auto; left; exact X0). fold b p.
      rewrite JE. replace p with (m + (p - m))%nat at 2 4 by lia. rewrite repeat_app.
      symmetry. apply adjacent_pieces; auto.
      * rewrite repeat_length. lia.
      * apply actint_pos; auto. split; [exact G1|]. split; auto.
      * rewrite <- JE. apply actint_pos; auto. repeat split; auto; try lia.
    + assert (JP : J = p).
      { destruct (le_lt_dec J p); [lia|]. exfalso.
        assert (nth (p + 1) ks 0 <= nth J ks 0) by (apply ND; fold ks; lia).
        fold ks p in C2. rewrite <- C0, LO in C2. lra. }
      symmetry. apply (call_piece s x J ND SZ). split; [exact (proj1 A)|]. split; [exact JL|]. split; [exact KP|].
      right. split; [symmetry; exact L|]. split; [|exact JP]. unfold kn. fold b ks. rewrite LO. lra.
Qed.
