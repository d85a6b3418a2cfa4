(** The dual methods (C36-C39, C71, C72). *)

From Coq Require Import List Arith Reals Lia Lra.
From Verif Require Import Admm_Model Admm_Spec Admm_Proofs Admm_Proofs2 Admm_Proofs3.
Import ListNotations.
Open Scope R_scope.

(* every vector is [1] *)
Definition equal_state : updater :=
  mkUpd [1] [1] [1] [1] [1] (fun _ => [1]) (fun _ => [1]) (fun _ => [1]) (fun _ => [1]) (fun _ => [1])
        (fun _ => [1]) (fun _ => [1]).

(* the stationary state of the example of C72 *)
Definition pull (u : nat) : R := if Nat.eqb u 0 then -1 else 1.
Definition goal (u : nat) (x : list R) : R := (nth 0 x 0 - 2 * INR u) * (nth 0 x 0 - 2 * INR u).
Definition meet (u : nat) : updater :=
  mkUpd [1] [1] [1] [pull u] [pull u] (fun _ => [1]) (fun _ => [1]) (fun _ => [1])
        (fun _ => [- pull u]) (fun _ => [- pull u]) (fun _ => [1]) (fun n => [- pull n]).

(* the z-update satisfies the coupling constraint exactly *)
Theorem C36_feasible : forall rho n A b x l z, rows n A -> length b = length A -> length x = n -> length l = n ->
  upd_z rho n A b x l z -> apply_rows A z = b.
Proof.  intros rho n A b x l z H1 H2 H3 H4 H5. rewrite <- mv_rows. exact (upd_z_feasible rho n A b x l z H1 H2 H3 H4 H5). Qed.
Example C36_feasible_ex : upd_z 1 2 [[1; -1]] [0] [3; 1] [0; 0] [2; 2].
Proof.
  exists [1]. split; [reflexivity|].
  unfold mv, upd_G, upd_h, upd_z_of, upd_f, mmt, vadd, vscale; simpl. split; repeat (f_equal; try lra).
Qed.
Print Assumptions C36_feasible.

(* and minimises the augmented Lagrangian term among all z that satisfy it *)
Theorem C36_optimal : forall rho n A b x l z, 0 < rho -> rows n A -> length b = length A -> length x = n -> length l = n -> upd_z rho n A b x l z ->
  forall z', length z' = n -> apply_rows A z' = b -> augmented rho l x z <= augmented rho l x z'.
Proof.  intros rho n A b x l z H0 H1 H2 H3 H4 H5 z' L E. rewrite <- mv_rows in E. exact (upd_z_optimal rho n A b x l z H0 H1 H2 H3 H4 H5 z' L E). Qed.
Print Assumptions C36_optimal.

(* the minimiser is unique *)
Theorem C36_unique : forall rho n A b x l z, 0 < rho -> rows n A -> length b = length A -> length x = n -> length l = n -> upd_z rho n A b x l z ->
  forall z', length z' = n -> apply_rows A z' = b -> augmented rho l x z' <= augmented rho l x z -> z' = z.
Proof.  intros rho n A b x l z H0 H1 H2 H3 H4 H5 z' L E M. rewrite <- mv_rows in E. exact (upd_z_unique rho n A b x l z H0 H1 H2 H3 H4 H5 z' L E M). Qed.
Print Assumptions C36_unique.

(* even for dependent rows all solutions of the linear system give the same z *)
Theorem C36_function : forall rho n A b x l z z', 0 < rho -> rows n A -> length b = length A ->
  length x = n -> length l = n -> upd_z rho n A b x l z -> upd_z rho n A b x l z' -> z = z'.
Proof. exact upd_z_function. Qed.
Print Assumptions C36_function.

(* the matrix of the system is injective when the rows of A are independent *)
Theorem C36_regular : forall rho n A mu mu', 0 < rho -> rows n A -> independent n A ->
  length mu = length A -> length mu' = length A ->
  apply_rows (upd_G rho A) mu = apply_rows (upd_G rho A) mu' -> mu = mu'.
Proof.  intros rho n A mu mu' H0 H1 H2 H3 H4 H5. rewrite <- !mv_rows in H5. exact (G_regular rho n A mu mu' H0 H1 H2 H3 H4 H5). Qed.
Example C36_regular_ex : independent 2 [[1; -1]].
Proof.
  intros [|m [|? ?]] H K; try discriminate H. specialize (K [1; 0] eq_refl). simpl in K.
  simpl. f_equal. lra.
Qed.
Print Assumptions C36_regular.

(* a constraint that is listed twice (see C35) makes it singular *)
Theorem C36_singular_refuted : exists rho n A mu, 0 < rho /\ rows n A /\ length mu = length A /\ mu <> repeat 0 (length A) /\
  apply_rows (upd_G rho A) mu = repeat 0 (length A).
Proof.  exists 1, 1%nat, [[1]; [1]], [1; -1]. split; [lra|]. split.
  - intros r [<-|[<-|[]]]; reflexivity.
  - split; [reflexivity|]. split; [intros E; injection E; intros; lra|].
    unfold apply_rows, upd_G, mmt, vscale. simpl. repeat (f_equal; try lra). Qed.
Print Assumptions C36_singular_refuted.

(* after the multiplier update the multipliers are orthogonal to every direction that the coupling leaves free *)
Theorem C36_multiplier : forall rho n A b x l z, 0 < rho -> rows n A -> length x = n -> length l = n -> upd_z rho n A b x l z ->
  forall w, length w = n -> apply_rows A w = repeat 0 (length A) -> inner (upd_l rho l x z) w = 0.
Proof.  intros rho n A b x l z H0 H1 H3 H4 H5 w L E. rewrite <- mv_rows in E. rewrite <- dot_inner. exact (upd_l_orthogonal rho n A b x l z H0 H1 H3 H4 H5 w L E). Qed.
Print Assumptions C36_multiplier.

(* after a round of exchanges every copy equals its original, whatever the state was *)
Theorem C37_exchange : forall N nb s, copies_agree N nb (communicate_all N nb s).
Proof. exact communicate_all_agree. Qed.
Example C37_exchange_ex :
  x_j (communicate_all 2 (fun u => [1 - u])%nat (start (fun u => [INR u])) 0) 1%nat = [INR 1].
Proof. reflexivity. Qed.
Print Assumptions C37_exchange.

(* so they agree after every dual update, for all solvers, shifts and acceleration schemes *)
Theorem C37_every_update : forall N nb rho shifts tf solver zsolver acc s,
  copies_agree N nb (dual_update N nb rho shifts tf solver zsolver acc s).
Proof. exact dual_update_agree. Qed.
Print Assumptions C37_every_update.

(* the z-update works on the vectors that the x-updates of the same iteration returned *)
Theorem C37_fresh : forall N nb shifts tf solver s u n,
  (u < N)%nat -> In n (nb u) -> (n < N)%nat ->
  let s1 := for_all N (init_step shifts tf) s in
  x_j (first_half N nb shifts tf solver s u) n = solver n (s1 n) /\
  x_i (first_half N nb shifts tf solver s u) = solver u (s1 u).
Proof. exact first_half_fresh. Qed.
Print Assumptions C37_fresh.

(* exchanging does not touch an updater's own variables *)
Theorem C37_own_kept : forall N nb s v,
  x_i (communicate_all N nb s v) = x_i (s v) /\ z_i (communicate_all N nb s v) = z_i (s v) /\
  l_i (communicate_all N nb s v) = l_i (s v) /\ z_ij (communicate_all N nb s v) = z_ij (s v) /\
  l_ij (communicate_all N nb s v) = l_ij (s v).
Proof.  intros N nb s v. destruct (communicate_all_own N nb s v) as [H1 [H2 [_ [H3 [_ [H4 [_ [H5 _]]]]]]]]. auto. Qed.
Print Assumptions C37_own_kept.

(* shifting to the next knot keeps the agreement when all updaters shift together *)
Theorem C37_shift : forall N nb shifts tf s,
  (forall u n, (u < N)%nat -> In n (nb u) -> (n < N)%nat) ->
  (forall u v, (u < N)%nat -> (v < N)%nat -> shifts u = shifts v) ->
  copies_agree N nb s -> copies_agree N nb (for_all N (init_step shifts tf) s).
Proof. exact shift_agree. Qed.
Print Assumptions C37_shift.

(* vehicles with different knot times do not shift together, and then the copies differ *)
Theorem C37_shift_refuted : exists N nb shifts tf s, (forall u n, (u < N)%nat -> In n (nb u) -> (n < N)%nat) /\
  copies_agree N nb s /\ ~ copies_agree N nb (for_all N (init_step shifts tf) s).
Proof.  exists 2%nat, (fun u => [1 - u])%nat, (fun u => u =? 0)%nat, (fun _ => vscale 2), (fun _ => equal_state).
  split; [intros u n Hu [<-|[]]; lia|]. split; [intros u n _ _; auto|].
  intros H. specialize (H 0%nat 1%nat ltac:(lia) (or_introl eq_refl)) as [H _].
  unfold for_all in H. simpl in H. injection H. lra. Qed.
Print Assumptions C37_shift_refuted.

(* the start values do not agree: the first x-update uses copies that differ from the originals *)
Theorem C37_start_refuted : exists guess N nb, ~ copies_agree N nb (start guess).
Proof.  exists (fun _ => [1]), 2%nat, (fun u => [1 - u])%nat. intros H.
  specialize (H 0%nat 1%nat ltac:(lia) (or_introl eq_refl)) as [H _]. simpl in H. injection H. lra. Qed.
Print Assumptions C37_start_refuted.

(* the primal residual is the root of the summed squared disagreements *)
Theorem C38_root : forall N nb s, 0 <= p_res N nb s /\
  p_res N nb s ^ 2 = sum_upto N (fun u => inner (minus (x_i (s u)) (z_i (s u))) (minus (x_i (s u)) (z_i (s u))) +
     fold_right Rplus 0 (map (fun n => inner (minus (x_j (s u) n) (z_ij (s u) n)) (minus (x_j (s u) n) (z_ij (s u) n))) (nb u))).
Proof. exact p_res_spec. Qed.
Print Assumptions C38_root.

(* and is zero exactly when all copies agree with the consensus variables *)
Theorem C38_zero : forall N nb s, fits N nb s ->
  (p_res N nb s = 0 <->
   forall u, (u < N)%nat -> x_i (s u) = z_i (s u) /\ forall n, In n (nb u) -> x_j (s u) n = z_ij (s u) n).
Proof. exact p_res_zero. Qed.
Example C38_zero_ex : fits 2 (fun u => [1 - u])%nat (fun _ => equal_state). Proof. intros u _. auto. Qed.
Print Assumptions C38_zero.

(* the combined residual combines the squares of the two reported ones *)
Theorem C38_combined : forall N rho nb s, 0 <= rho -> c_res N rho nb s = rho * p_res N nb s ^ 2 + d_res N rho nb s ^ 2.
Proof. exact combined_split. Qed.
Print Assumptions C38_combined.

(* the residual of dual decomposition, too, is zero exactly at agreement *)
Theorem C38_dd_zero : forall N nb s, fits N nb s ->
  (dd_p_res N nb s = 0 <-> forall u, (u < N)%nat -> forall n, In n (nb u) -> x_j (s u) n = z_ij (s u) n).
Proof. exact dd_p_res_zero. Qed.
Print Assumptions C38_dd_zero.

(* but it squares twice and so is not the root of the summed squares *)
Theorem C38_dd_refuted : exists N nb s, dd_p_res N nb s <> sqrt (total N (fun u => dd_primal nb u (s u))).
Proof.  exists 1%nat, (fun _ => [1%nat]), dd_state. destruct dd_differs as [-> ->]. lra. Qed.
Print Assumptions C38_dd_refuted.

(* the acceleration parameter is at least one at all times, with and without resets *)
Theorem C39_alpha : forall reset eta cs, match fold_left (nest_step reset eta) cs None with Some s => 1 <= alpha s | None => True end.
Proof.  intros reset eta cs. exact (nest_run_ok reset eta cs None I). Qed.
Print Assumptions C39_alpha.

(* one accelerated step increases it by at least one half and at most one *)
Theorem C39_growth : forall a, 1 <= a -> a + 1 / 2 <= next_alpha a <= a + 1.
Proof. exact next_alpha_grow. Qed.
Example C39_growth_ex : 3 / 2 <= next_alpha 1 <= 2. Proof. pose proof (next_alpha_grow 1 (Rle_refl 1)). lra. Qed.
Print Assumptions C39_growth.

(* it solves the equation of Nesterov's sequence *)
Theorem C39_equation : forall a, next_alpha a * (next_alpha a - 1) = a ^ 2.
Proof. exact next_alpha_eq. Qed.
Print Assumptions C39_equation.

(* without resets it grows linearly with the number of steps *)
Theorem C39_growth_total : forall eta c cs, exists s,
  fold_left (nest_step false eta) (c :: cs) None = Some s /\
  1 + INR (length (c :: cs)) / 2 <= alpha s <= 1 + INR (length (c :: cs)).
Proof. exact nest_run_growth. Qed.
Print Assumptions C39_growth_total.

(* the extrapolation weight lies in [0, 1) *)
Theorem C39_weight : forall a, 1 <= a -> 0 <= weight a < 1.
Proof. exact weight_range. Qed.
Print Assumptions C39_weight.

(* the parameter does not depend on the vectors nor on the option AMA *)
Theorem C39_state : forall reset ama eta c st z z_p l l_p,
  Some (snd (accelerate reset ama eta c st z z_p l l_p)) = nest_step reset eta st c.
Proof. exact accelerate_state. Qed.
Print Assumptions C39_state.

(* the first call changes nothing and is never a reset *)
Theorem C39_first : forall reset ama eta c z z_p l l_p, 0 < eta ->
  length z = length z_p -> length l = length l_p ->
  accelerate reset ama eta c None z z_p l l_p = (z, l, mkNest (next_alpha 1) c).
Proof. exact first_accepts. Qed.
Example C39_first_ex : accelerate true false (9 / 10) 5 None [1] [0] [2] [0] = ([1], [2], mkNest (next_alpha 1) 5).
Proof. apply first_accepts; trivial. lra. Qed.
Print Assumptions C39_first.

(* a reset takes back the step and raises the accepted residual *)
Theorem C39_reset : forall ama eta c s z z_p l l_p,
  eta * c_res_p s < c ->
  accelerate true ama eta c (Some s) z z_p l l_p = (z_p, l_p, mkNest 1 (1 / eta * c_res_p s)).
Proof. exact reset_restores. Qed.
Example C39_reset_ex : accelerate true false (1 / 2) 5 (Some (mkNest 2 4)) [1] [0] [2] [7] = ([0], [7], mkNest 1 (1 / (1 / 2) * 4)).
Proof. apply (reset_restores false (1 / 2) 5 (mkNest 2 4)). simpl. lra. Qed.
Print Assumptions C39_reset.

(* bounded residuals cannot be rejected for ever *)
Theorem C39_no_endless_reset : forall eta s M, 0 < eta < 1 -> 0 < c_res_p s ->
  exists k, forall cs, (k < length cs)%nat -> (forall c, In c cs -> c <= M) ->
  ~ (forall j, (j <= k)%nat -> exists t, fold_left (nest_step true eta) (firstn j cs) (Some s) = Some t /\
               eta * c_res_p t < nth j cs 0).
Proof. exact no_endless_reset. Qed.
Print Assumptions C39_no_endless_reset.

(* unless the remembered residual is zero: then every later step is taken back *)
Theorem C39_reset_refuted : exists eta s, 0 < eta < 1 /\ forall cs, (forall c, In c cs -> 0 < c) -> cs <> [] ->
  fold_left (nest_step true eta) cs (Some s) = Some (mkNest 1 0).
Proof.  exists (1 / 2), (mkNest 1 0). split; [lra|]. intros cs H K. apply reset_stuck; trivial. lra. Qed.
Print Assumptions C39_reset_refuted.

(* when the reported primal residual is zero, the planned trajectories themselves satisfy all coupling constraints *)
Theorem C71_coupling : forall N nb rho shifts tf solver zsolver s A b dim,
  let s3 := first_half N nb shifts tf solver s in
  let s' := dual_update N nb rho shifts tf solver zsolver None s in
  0 < rho ->
  (forall u, (u < N)%nat -> rows (dim u) (A u) /\ length (b u) = length (A u) /\
     length (stack nb u (x_i (s3 u)) (x_j (s3 u))) = dim u /\
     length (stack nb u (l_i (s3 u)) (l_ij (s3 u))) = dim u /\
     z_outcome rho nb (A u) (b u) (dim u) u (s3 u) (fst (zsolver u (s3 u))) (snd (zsolver u (s3 u)))) ->
  (forall u n, (u < N)%nat -> In n (nb u) -> (n < N)%nat) ->
  fits N nb s' -> p_res N nb s' = 0 ->
  forall u, (u < N)%nat -> apply_rows (A u) (gather nb (fun v => x_i (s' v)) u) = b u.
Proof. exact zero_residual_coupling. Qed.
Example C71_coupling_ex : let nb := (fun u => [1 - u])%nat in
  let s' := dual_update 2 nb 1 (fun _ => false) (fun _ v => v) (fun _ _ => [1]) (fun _ _ => ([1], fun _ => [1])) None meet in
  fits 2 nb s' /\ p_res 2 nb s' = 0.
Proof.
  intros nb s'.
  assert (F : fits 2 nb s').
  { intros u Hu. assert (U : u = 0%nat \/ u = 1%nat) by lia.
    destruct U as [-> | ->]; split; try reflexivity; intros n [<-|[]]; reflexivity. }
  split; [exact F|]. apply (proj2 (p_res_zero 2 nb s' F)).
  intros u Hu. assert (U : u = 0%nat \/ u = 1%nat) by lia.
  destruct U as [-> | ->]; split; try reflexivity; intros n [<-|[]]; reflexivity.
Qed.
Print Assumptions C71_coupling.

(* a state that a dual update does not change is a minimiser of the sum of the vehicles' objectives under all coupling constraints *)
Theorem C72_stationary_optimal : forall N nb rho tf solver zsolver s A b dim total_dim X J,
  let s3 := first_half N nb (fun _ => false) tf solver s in
  let s' := dual_update N nb rho (fun _ => false) tf solver zsolver None s in
  0 < rho -> neighbourhood N nb ->
  (forall u, (u < N)%nat ->
     rows (total_dim u) (A u) /\ length (b u) = length (A u) /\
     total_dim u = length (stack nb u (x_i (s u)) (fun n => x_i (s n))) /\
     sized nb dim u (s u) /\ same_on nb u (s' u) (s u) /\
     z_outcome rho nb (A u) (b u) (total_dim u) u (s3 u)
               (fst (zsolver u (s3 u))) (snd (zsolver u (s3 u))) /\
     convex_on (dim u) (X u) (J u) /\
     X u (solver u (s u)) /\
     (forall w, X u w -> length w = dim u ->
        J u (solver u (s u)) + x_penalty rho nb u (s u) (solver u (s u)) <=
        J u w + x_penalty rho nb u (s u) w)) ->
  (forall u, (u < N)%nat -> X u (x_i (s u)) /\
     apply_rows (A u) (gather nb (fun v => x_i (s v)) u) = b u) /\
  forall y, (forall u, (u < N)%nat -> length (y u) = dim u /\ X u (y u) /\
               apply_rows (A u) (gather nb y u) = b u) ->
    sum_upto N (fun u => J u (x_i (s u))) <= sum_upto N (fun u => J u (y u)).
Proof. exact stationary_optimal. Qed.
(* two vehicles on a line want to be at 0 and 2 and have to meet: they meet at 1 *)
Example C72_stationary_optimal_ex :
  let nb := (fun u => [1 - u])%nat in
  let solver := fun (_ : nat) (_ : updater) => [1] in
  let zsolver := fun (_ : nat) (_ : updater) => ([1], fun _ : nat => [1]) in
  let s3 := first_half 2 nb (fun _ => false) (fun _ v => v) solver meet in
  let s' := dual_update 2 nb 1 (fun _ => false) (fun _ v => v) solver zsolver None meet in
  neighbourhood 2 nb /\
  forall u, (u < 2)%nat ->
     rows 2 [[1; -1]] /\ length [0] = length [[1; -1]] /\
     2%nat = length (stack nb u (x_i (meet u)) (fun n => x_i (meet n))) /\
     sized nb (fun _ => 1%nat) u (meet u) /\ same_on nb u (s' u) (meet u) /\
     z_outcome 1 nb [[1; -1]] [0] 2 u (s3 u) (fst (zsolver u (s3 u))) (snd (zsolver u (s3 u))) /\
     convex_on 1 (fun _ => True) (goal u) /\ True /\
     (forall w, True -> length w = 1%nat ->
        goal u (solver u (meet u)) + x_penalty 1 nb u (meet u) (solver u (meet u)) <=
        goal u w + x_penalty 1 nb u (meet u) w).
Proof.
  intros nb solver zsolver s3 s'. split.
  - intros u Hu. split; [repeat constructor; simpl; tauto|]. intros n [<-|[]]. unfold nb. split; [lia|left; lia].
  - intros u Hu. assert (U : u = 0%nat \/ u = 1%nat) by lia.
    split; [intros r [<-|[]]; reflexivity|]. split; [reflexivity|]. split; [reflexivity|].
    split; [repeat split|].
    assert (M : forall m, upd_l 1 [m] [1] [1] = [m]).
    { intros m. unfold upd_l, vadd, vscale, vsub. simpl. f_equal. ring. }
    split; [|split; [|split; [|split; [trivial|]]]].
    + destruct U as [-> | ->]; (split; [reflexivity|]); (split; [reflexivity|]); (split; [apply M|]);
        (intros n [<-|[]]); (split; [reflexivity|]); (split; [reflexivity|]);
        (split; [apply M|]); (split; [reflexivity|]); apply M.
    + exists [pull u]. split; [reflexivity|]. unfold upd_G, upd_h, upd_z_of, upd_f, mmt, mv, stack, vscale, vadd.
      destruct U as [-> | ->]; simpl; split; repeat (f_equal; try lra).
    + intros [|x [|? ?]] [|y [|? ?]] [|z [|? ?]] th L1 L2 L3 _ _ Hth K; try discriminate.
      split; [trivial|]. specialize (K 0%nat). simpl in K. unfold goal. simpl. subst z.
      set (c := 2 * INR u). pose proof (Rle_0_sqr (x - y)) as P. unfold Rsqr in P.
      assert (0 <= th * (1 - th) * ((x - y) * (x - y))) by (apply Rmult_le_pos; [apply Rmult_le_pos; lra|trivial]).
      lra.
    + intros [|w [|? ?]] _ L; try discriminate. unfold goal, x_penalty, vsub, sqn.
      pose proof (Rle_0_sqr (w - 1)) as P. unfold Rsqr in P.
      destruct U as [-> | ->]; simpl; unfold pull; simpl; lra.
Qed.
Print Assumptions C72_stationary_optimal.
