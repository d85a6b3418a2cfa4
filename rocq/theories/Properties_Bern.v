(** Splines on one knot interval (C161). *)
From Coq Require Import Reals List Arith Lia Lra.
From Verif Require Import Spline_Model Spline_Spec Splop_Model Splop_Spec Vehicle_Model Vehicle_Spec Lift_Model Lift_Spec
  Bern_Spec Bern_Proofs Bern_Proofs2 Bern_Proofs3 Bern_Proofs4.
Import ListNotations.
Local Open Scope R_scope.

(* sums, products, powers and derivatives of polynomial pieces never raise, up to degree 250, and the result has the expected degree *)
Theorem C161_operations : forall tol X D e, polynomial X D e -> below_degree 250 D e ->
  exists o, build tol X e = Some o /\ has_degree (deg_of D e) o.
Proof. exact build_poly. Qed.
Example C161_operations_ex : let X i := mkS (bern 3) [0; 1; INR i; 2] in
  exists s, build (1/100) X (SV 0 1 * SV 1 0 ^ 3 - SV 2 2 + SN 4)%sx = Some (Spl s) /\ sbasis s = bern 11.
Proof.
  intros X. destruct (C161_operations (1/100) X (fun _ => 3%nat) (SV 0 1 * SV 1 0 ^ 3 - SV 2 2 + SN 4)%sx) as (o & E & K).
  - repeat split; cbn; lia.
  - cbn [below_degree deg_of join Nat.max Nat.add Nat.mul Nat.sub]. repeat split; lia.
  - destruct o as [r|s]; [destruct K|]. exists s. split; [exact E|exact K].
Qed.
Print Assumptions C161_operations.

(* the collocation matrix that the operations solve with is regular *)
Theorem C161_regular : forall d, (d <= 250)%nat -> only_zero (blen (bern d)) (colloc (bern d)).
Proof. exact bern_regular. Qed.
Example C161_regular_ex : only_zero (blen (bern 100)) (colloc (bern 100)).
Proof. apply C161_regular. lia. Qed.
Print Assumptions C161_regular.

(* the coefficients are determined by the values *)
Theorem C161_unique : forall d c c', (d <= 250)%nat -> length c = S d -> length c' = S d ->
  (forall x, 0 <= x <= 1 -> call (mkS (bern d) c) x = call (mkS (bern d) c') x) -> c = c'.
Proof. exact bern_coeffs. Qed.
Example C161_unique_ex : forall c, length c = 3%nat -> (forall x, 0 <= x <= 1 -> call (mkS (bern 2) c) x = call (mkS (bern 2) [0; 1; 0]) x) -> c = [0; 1; 0].
Proof. intros c L. apply (C161_unique 2 c [0; 1; 0]); [lia|exact L|reflexivity]. Qed.
Print Assumptions C161_unique.

(* a polynomial piece has a representation of every higher degree, with coefficients within the same bounds *)
Theorem C161_elevate : forall k n c lo hi, length c = S k -> (forall v, In v c -> lo <= v <= hi) ->
  exists l, length l = S (n + k) /\ (forall x, 0 <= x <= 1 -> call (mkS (bern (n + k)) l) x = call (mkS (bern k) c) x) /\ forall v, In v l -> lo <= v <= hi.
Proof. exact elevate. Qed.
Example C161_elevate_ex : exists l, length l = 8%nat /\ (forall x, 0 <= x <= 1 -> call (mkS (bern 7) l) x = call (mkS (bern 2) [0; 1; 1/2]) x) /\ forall v, In v l -> 0 <= v <= 1.
Proof. apply (C161_elevate 2 5 [0; 1; 1/2] 0 1); [reflexivity|]. intros v [<-|[<-|[<-|[]]]]; lra. Qed.
Print Assumptions C161_elevate.
