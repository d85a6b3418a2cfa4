(** Concrete trajectories for the examples beside the vehicle theorems. *)
From Coq Require Import Reals List Arith Lra Lia.
From Verif Require Import Vehicle_Model Vehicle_Spec Vehicle_Proofs.
Import ListNotations.
Open Scope R_scope.

(** the cubic a + b u + c u^2 + d u^3 with its derivatives *)
Definition cubic (a b c d : R) (u : R) : jet := fun o =>
  match o with
  | 0%nat => a + b * u + c * u ^ 2 + d * u ^ 3
  | 1%nat => b + 2 * c * u + 3 * d * u ^ 2
  | 2%nat => 2 * c + 6 * d * u
  | 3%nat => 6 * d
  | _ => 0
  end.
Lemma cubic_lim : forall a b c d u, derivable_pt_lim (fun u => a + b * u + c * u ^ 2 + d * u ^ 3) u (b + 2 * c * u + 3 * d * u ^ 2).
Proof.
  intros a b c d u.
  replace (b + 2 * c * u + 3 * d * u ^ 2)
    with (0 + b * 1 + c * (INR 2 * u ^ 1) + d * (INR 3 * u ^ 2)) by (cbn; ring).
  apply (derivable_pt_lim_plus (fun u => a + b * u + c * u ^ 2) (fun u => d * u ^ 3)).
  - apply (derivable_pt_lim_plus (fun u => a + b * u) (fun u => c * u ^ 2)).
    + apply (derivable_pt_lim_plus (fun _ => a) (fun u => b * u)).
      * apply derivable_pt_lim_const.
      * apply (derivable_pt_lim_scal id). apply derivable_pt_lim_id.
    + apply (derivable_pt_lim_scal (fun u => u ^ 2)). apply (derivable_pt_lim_pow u 2).
  - apply (derivable_pt_lim_scal (fun u => u ^ 3)). apply (derivable_pt_lim_pow u 3).
Qed.
Lemma cubic_smooth : forall lo hi a b c d o, smooth lo hi (cubic a b c d) o.
Proof.
  intros lo hi a b c d o t H.
  assert (K : forall p q r s, deriv_in lo hi (fun u => p + q * u + r * u ^ 2 + s * u ^ 3) t (q + 2 * r * t + 3 * s * t ^ 2)).
  { intros p q r s. eapply deriv_of_lim; [exact H| |apply cubic_lim]. reflexivity. }
  destruct o as [|[|[|[|o]]]]; cbn [cubic].
  - apply K.
  - apply (deriv_ext lo hi (fun u => b + 2 * c * u + 3 * d * u ^ 2 + 0 * u ^ 3)); [exact H|intros; ring|].
    eapply deriv_eq; [apply K|ring].
  - apply (deriv_ext lo hi (fun u => 2 * c + 6 * d * u + 0 * u ^ 2 + 0 * u ^ 3)); [exact H|intros; ring|].
    eapply deriv_eq; [apply K|ring].
  - apply deriv_const.
  - apply deriv_const.
Qed.
