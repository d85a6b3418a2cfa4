(** Integrals of tensor product splines. *)
From Coq Require Import Reals Lra Lia List Arith Bool ZArith.
From Verif Require Import Blossom Spline_Model Spline_Spec Spline_Proofs Spline_Proofs2 Splop_Model Splop_Spec Splop_Proofs
  Splop_Proofs2 Splop_Proofs3 Nurbs_Model Nurbs_Spec Nurbs_Proofs Nurbs_Proofs5.
Import ListNotations.
Local Open Scope R_scope.

Lemma integral_dot : forall s, integral s = dot (spans_of (sbasis s)) (coeffs s).
Proof.
  intros s. unfold integral, spans_of. generalize (map (fun i => (kn (sbasis s) (i + (degree (sbasis s) + 1)) - kn (sbasis s) i) / (INR (degree (sbasis s)) + 1))
    (seq 0 (length (knots (sbasis s)) - (degree (sbasis s) + 1)))). intros K. generalize (coeffs s). intros c. clear s.
  assert (G : forall K c acc, fold_left Rplus (map (fun p => fst p * snd p) (combine K c)) acc = acc + dot K c).
  { clear. induction K as [|k K IH]; intros [|a c] acc; cbn; try lra. rewrite IH. ring. }
  rewrite G. ring.
Qed.
Lemma spans_length : forall b, length (spans_of b) = blen b.
Proof. intros b. unfold spans_of, blen. rewrite map_length, seq_length. lia. Qed.
Theorem tint_vsum : forall bs c, tint bs c = vsum (map spans_of bs) c.
Proof.
  induction bs as [|b bs IH]; intros c; cbn [tint map vsum]; auto. rewrite integral_dot. cbn [sbasis coeffs]. rewrite <- spans_length, dot_seq.
  apply total_ext_in. intros i _. now rewrite IH.
Qed.
Lemma dot_spans : forall b f, dot (spans_of b) (map f (seq 0 (blen b))) = total (map (fun i => nth i (spans_of b) 0 * f i) (seq 0 (blen b))).
Proof. intros b f. rewrite <- spans_length. apply dot_seq. Qed.
Lemma dot_eval : forall b x f, dot (eval_basis b x) (map f (seq 0 (blen b))) = total (map (fun i => nth i (eval_basis b x) 0 * f i) (seq 0 (blen b))).
Proof. intros b x f. rewrite <- (blen_eval b x). apply dot_seq. Qed.
(** what the iterated integral of two variables means *)
Theorem tint_slices : forall b0 b1 c, let t := mkT [b0; b1] c in
  let slice x := mkS b1 (map (fun j => total (map (fun i => nth i (eval_basis b0 x) 0 * c [i; j]) (seq 0 (blen b0)))) (seq 0 (blen b1))) in
  exists F, sbasis F = b0 /\ sized F /\ tint [b0; b1] c = integral F /\
    (forall x, call F x = integral (slice x)) /\ forall x y, call (slice x) y = tcall t [x; y].
Proof.
  intros b0 b1 c t slice.
  exists (mkS b0 (map (fun i => integral (mkS b1 (map (fun j => c [i; j]) (seq 0 (blen b1))))) (seq 0 (blen b0)))).
  split; [reflexivity|]. split. { unfold sized. cbn [sbasis coeffs]. rewrite map_length, seq_length. reflexivity. } split; [reflexivity|]. split.
  - intros x. unfold call, slice. rewrite integral_dot. cbn [sbasis coeffs].
    rewrite dot_eval, dot_spans.
    rewrite (total_ext_in _ (fun j => nth j (spans_of b1) 0 * _) (fun j => total (map (fun i => nth i (eval_basis b0 x) 0 * (nth j (spans_of b1) 0 * c [i; j])) (seq 0 (blen b0))))).
    2:{ intros j _. rewrite <- total_times. apply total_ext_in. intros i _. ring. }
    rewrite <- (total_swap nat nat (fun i j => nth i (eval_basis b0 x) 0 * (nth j (spans_of b1) 0 * c [i; j]))).
    apply total_ext_in. intros i _. rewrite integral_dot. cbn [sbasis coeffs]. rewrite dot_spans, total_times. reflexivity.
  - intros x y. rewrite tcall_tsum by reflexivity. cbn [t tbasis tcoeffs tsum]. unfold call, slice. cbn [sbasis coeffs].
    rewrite dot_eval.
    rewrite (total_ext_in _ (fun j => nth j (eval_basis b1 y) 0 * _) (fun j => total (map (fun i => nth i (eval_basis b0 x) 0 * (nth j (eval_basis b1 y) 0 * c [i; j])) (seq 0 (blen b0))))).
    2:{ intros j _. rewrite <- total_times. apply total_ext_in. intros i _. ring. }
    rewrite <- (total_swap nat nat (fun i j => nth i (eval_basis b0 x) 0 * (nth j (eval_basis b1 y) 0 * c [i; j]))).
    apply total_ext_in. intros i _. rewrite total_times. reflexivity.
Qed.
Lemma dot_comm : forall u v, dot u v = dot v u.
Proof. induction u as [|a u IH]; intros [|b v]; cbn; auto. rewrite IH. ring. Qed.
Theorem tintegral_plane : forall b0 b1 c, tintegral (mkT [b0; b1] c) = Some (tint [b0; b1] c).
Proof.
  intros b0 b1 c. unfold tintegral. cbn [tbasis tcoeffs map]. f_equal. rewrite tint_vsum. cbn [map vsum]. rewrite dot_seq.
  apply total_ext_in. intros i _. f_equal. rewrite dot_comm, dot_seq. reflexivity.
Qed.
Lemma inners_contract : forall Ks ns a, rev ns = map (@length R) Ks -> inners Ks ns a = Some (contract Ks a []).
Proof.
  induction Ks as [|K Ks IH]; intros ns a E; cbn [inners contract]; auto.
  assert (N : ns = rev (map (@length R) Ks) ++ [length K]). { rewrite <- (rev_involutive ns), E. reflexivity. }
  rewrite N, last_last, removelast_last, Nat.eqb_refl. apply IH. apply rev_involutive.
Qed.
Theorem tintegral_line : forall b c, tintegral (mkT [b] c) = Some (tint [b] c).
Proof.
  intros b c. unfold tintegral. cbn [tbasis tcoeffs map last removelast]. rewrite inners_contract by reflexivity. f_equal.
  rewrite tint_vsum. exact (contract_rev [spans_of b] c []).
Qed.
Lemma last_app1 : forall (A : Type) (l : list A) a d, last (l ++ [a]) d = a. Proof. intros. apply last_last. Qed.
Lemma rev_repeat : forall (A : Type) (a : A) n, rev (repeat a n) = repeat a n.
Proof.
  induction n as [|n IH]; cbn; auto. rewrite IH. clear IH. induction n as [|n IH]; cbn; auto. now rewrite IH.
Qed.
Lemma map_repeat1 : forall (A B : Type) (f : A -> B) a n, map f (repeat a n) = repeat (f a) n.
Proof. induction n as [|n IH]; cbn; auto. now rewrite IH. Qed.
(** more than two variables: right when all but the last have the same basis *)
Theorem tintegral_same : forall b b1 n c, tintegral (mkT (repeat b n ++ [b1]) c) = Some (tint (repeat b n ++ [b1]) c).
Proof.
  intros b b1 n c. destruct n as [|[|n]]; [apply tintegral_line|apply tintegral_plane|].
  unfold tintegral. cbn [tbasis tcoeffs]. rewrite map_app, map_repeat1. cbn [map].
  set (Ks := repeat (spans_of b) (S (S n)) ++ [spans_of b1]).
  assert (M : match Ks with [] => None | [_] => inners (last Ks [] :: removelast Ks) (map (@length R) Ks) c
     | [K0; K1] => Some (dot K0 (map (fun i => dot (map (fun j => c [i; j]) (seq 0 (length K1))) K1) (seq 0 (length K0))))
     | _ => inners (last Ks [] :: removelast Ks) (map (@length R) Ks) c end = inners (last Ks [] :: removelast Ks) (map (@length R) Ks) c).
  { unfold Ks. cbn [repeat app]. destruct n; reflexivity. }
  transitivity (inners (last Ks [] :: removelast Ks) (map (@length R) Ks) c).
  { rewrite <- M. destruct Ks as [|K0 [|K1 [|K2 Ks]]]; reflexivity. }
  assert (RL : last Ks [] :: removelast Ks = rev Ks).
  { unfold Ks. rewrite last_last, removelast_last, rev_app_distr, rev_repeat. reflexivity. }
  rewrite RL, inners_contract by (rewrite map_rev; reflexivity). f_equal. rewrite contract_rev, tint_vsum, map_app, map_repeat1. reflexivity.
Qed.
