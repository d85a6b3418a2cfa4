(** Limits of the holonomic vehicles and the tool; arrival tests. *)
From Coq Require Import Reals List Arith Bool String Lia Lra Psatz.
From Verif Require Import Angle_Model Angle_Proofs Vehicle_Model Vehicle_Spec Vehicle_Proofs.
Import ListNotations.
Open Scope R_scope.

Definition holds1 (env : nat -> jet) (c : con) : Prop :=
  (match clo c with None => True | Some l => l <= sval env (cexpr c) end) /\
  sval env (cexpr c) <= chi c.
Lemma holds_nil : forall env, holds env [].
Proof. intros env c I. inversion I. Qed.
Lemma holds_cons : forall env c cs, holds env (c :: cs) <-> holds1 env c /\ holds env cs.
Proof.
  intros env c cs. unfold holds, holds1. split.
  - intros H. split; [apply H; left; reflexivity|intros d D; apply H; right; exact D].
  - intros [A B] d [D|D]; [subst d; exact A|apply B; exact D].
Qed.
Lemma holds_app : forall env a b, holds env (a ++ b) <-> holds env a /\ holds env b.
Proof.
  intros env a b. unfold holds. split.
  - intros H. split; intros c I; apply H, in_or_app; auto.
  - intros [A B] c I. apply in_app_or in I. destruct I; auto.
Qed.
Lemma holds_le0 : forall env e, holds1 env (le0 e) <-> sval env e <= 0.
Proof. intros env e. unfold holds1, le0; cbn. tauto. Qed.

Lemma scaled_lo : forall P d lo, 0 < P -> (- d + P * lo <= 0 <-> lo <= d / P).
Proof.
  intros P d lo H. split; intros K.
  - apply (Rmult_le_reg_l P); [exact H|]. replace (P * (d / P)) with d by (field; lra). lra.
  - apply (Rmult_le_compat_l P) in K; [|lra]. replace (P * (d / P)) with d in K by (field; lra). lra.
Qed.
Lemma scaled_hi : forall P d hi, 0 < P -> (d - P * hi <= 0 <-> d / P <= hi).
Proof.
  intros P d hi H. split; intros K.
  - apply (Rmult_le_reg_l P); [exact H|]. replace (P * (d / P)) with d by (field; lra). lra.
  - apply (Rmult_le_compat_l P) in K; [|lra]. replace (P * (d / P)) with d in K by (field; lra). lra.
Qed.
Lemma sqrt_le_iff : forall a m, 0 <= a -> 0 <= m -> (sqrt a <= m <-> a <= m ^ 2).
Proof.
  intros a m A M. split; intros H.
  - rewrite <- (sqrt_sqrt a A). replace (m ^ 2) with (m * m) by ring.
    apply Rmult_le_compat; try apply sqrt_pos; exact H.
  - rewrite <- (sqrt_pow2 m M). apply sqrt_le_1; [exact A|apply pow2_ge_0|exact H].
Qed.
Lemma pow_T : forall T n, 0 < T -> 0 < T ^ n.
Proof. intros T n H. apply pow_lt, H. Qed.
Lemma two_norm2 : forall T a b m (n : nat), 0 < T -> 0 <= m ->
  ((a ^ 2 + b ^ 2) - T ^ (2 * n) * m ^ 2 <= 0 <-> sqrt ((a / T ^ n) ^ 2 + (b / T ^ n) ^ 2) <= m).
Proof.
  intros T a b m n H M. pose proof (pow_T T n H) as P.
  rewrite sqrt_le_iff; [|pose proof (pow2_ge_0 (a / T ^ n)); pose proof (pow2_ge_0 (b / T ^ n)); lra|exact M].
  replace ((a / T ^ n) ^ 2 + (b / T ^ n) ^ 2) with ((a ^ 2 + b ^ 2) / (T ^ n) ^ 2) by (field; lra).
  rewrite <- scaled_hi by (apply pow_lt; exact P).
  rewrite <- pow_mult, (Nat.mul_comm n 2). tauto.
Qed.
Lemma three_norm2 : forall T a b c m (n : nat), 0 < T -> 0 <= m ->
  ((a ^ 2 + b ^ 2 + c ^ 2) - T ^ (2 * n) * m ^ 2 <= 0 <->
   sqrt ((a / T ^ n) ^ 2 + (b / T ^ n) ^ 2 + (c / T ^ n) ^ 2) <= m).
Proof.
  intros T a b c m n H M. pose proof (pow_T T n H) as P.
  rewrite sqrt_le_iff; [|pose proof (pow2_ge_0 (a / T ^ n)); pose proof (pow2_ge_0 (b / T ^ n)); pose proof (pow2_ge_0 (c / T ^ n)); lra|exact M].
  replace ((a / T ^ n) ^ 2 + (b / T ^ n) ^ 2 + (c / T ^ n) ^ 2) with ((a ^ 2 + b ^ 2 + c ^ 2) / (T ^ n) ^ 2) by (field; lra).
  rewrite <- scaled_hi by (apply pow_lt; exact P).
  rewrite <- pow_mult, (Nat.mul_comm n 2). tauto.
Qed.
Lemma T1 : forall T, T = T ^ 1. Proof. intros; ring. Qed.

Ltac open_holds := rewrite ?holds_app, ?holds_cons, ?holds_le0; cbn [sval].
Ltac nilh := pose proof holds_nil.

Lemma holonomic_inf_ok : forall b T env, 0 < T -> exists cs,
  holonomic_constraints "norm_inf" b T = Some cs /\
  let L := holonomic_limits b in
  (holds env cs <->
   vxmin L <= phys T (env 0%nat) 1 <= vxmax L /\ vymin L <= phys T (env 1%nat) 1 <= vymax L /\
   axmin L <= phys T (env 0%nat) 2 <= axmax L /\ aymin L <= phys T (env 1%nat) 2 <= aymax L).
Proof.
  intros b T env H. exists (holonomic_inf (holonomic_limits b) T). split; [reflexivity|].
  cbv zeta. unfold holonomic_inf, phys. open_holds.
  replace (T ^ 1) with T by ring.
  rewrite !scaled_lo, !scaled_hi by (try apply pow_T; exact H).
  pose proof (holds_nil env). tauto.
Qed.

Lemma holonomic_two_ok : forall b T env, 0 < T ->
  let vm := dflt (b_vmax b) (1/2) in let am := dflt (b_amax b) 1 in
  0 <= vm -> 0 <= am -> exists cs,
  holonomic_constraints "norm_2" b T = Some cs /\
  (holds env cs <->
   sqrt (phys T (env 0%nat) 1 ^ 2 + phys T (env 1%nat) 1 ^ 2) <= vm /\
   sqrt (phys T (env 0%nat) 2 ^ 2 + phys T (env 1%nat) 2 ^ 2) <= am).
Proof.
  intros b T env H vm am V A. eexists. split; [reflexivity|]. fold vm am.
  unfold holonomic_two, phys. open_holds.
  rewrite <- !two_norm2 by assumption. cbn [Nat.mul Nat.add].
  pose proof (holds_nil env). tauto.
Qed.

Lemma holonomic_other : forall s b T, s <> "norm_inf"%string -> s <> "norm_2"%string ->
  holonomic_constraints s b T = None.
Proof.
  intros s b T A B. unfold holonomic_constraints.
  destruct (String.eqb_spec s "norm_2"); [contradiction|].
  destruct (String.eqb_spec s "norm_inf"); [contradiction|]. reflexivity.
Qed.

Lemma holonomic_limits_common : forall b v, b_vmax b = Some v ->
  vxmax (holonomic_limits b) = v /\ vymax (holonomic_limits b) = v.
Proof. intros b v E. unfold holonomic_limits; cbn. rewrite E. auto. Qed.

Lemma holonomic1d_ok : forall vmin vmax amin amax T env, 0 < T ->
  (holds env (holonomic1d_constraints vmin vmax amin amax T) <->
   vmin <= phys T (env 0%nat) 1 <= vmax /\ amin <= phys T (env 0%nat) 2 <= amax).
Proof.
  intros vmin vmax amin amax T env H. unfold holonomic1d_constraints, phys. open_holds.
  replace (T ^ 1) with T by ring.
  rewrite !scaled_lo, !scaled_hi by (try apply pow_T; exact H).
  pose proof (holds_nil env). tauto.
Qed.

Lemma holonomic3d_inf_ok : forall vmin vmax amin amax T env, 0 < T -> exists cs,
  holonomic3d_constraints "norm_inf" vmin vmax amin amax T = Some cs /\
  (holds env cs <-> forall i, (i < 3)%nat ->
     vmin <= phys T (env i) 1 <= vmax /\ amin <= phys T (env i) 2 <= amax).
Proof.
  intros vmin vmax amin amax T env H. eexists. split; [reflexivity|]. unfold phys. open_holds.
  replace (T ^ 1) with T by ring.
  rewrite !scaled_lo, !scaled_hi by (try apply pow_T; exact H).
  pose proof (holds_nil env). split.
  - intros K i I. destruct i as [|[|[|i]]]; [tauto|tauto|tauto|lia].
  - intros K. pose proof (K 0%nat ltac:(lia)). pose proof (K 1%nat ltac:(lia)). pose proof (K 2%nat ltac:(lia)). tauto.
Qed.
Lemma holonomic3d_two_ok : forall vmin vmax amin amax T env, 0 < T -> 0 <= vmax -> 0 <= amax -> exists cs,
  holonomic3d_constraints "norm_2" vmin vmax amin amax T = Some cs /\
  (holds env cs <->
   sqrt (phys T (env 0%nat) 1 ^ 2 + phys T (env 1%nat) 1 ^ 2 + phys T (env 2%nat) 1 ^ 2) <= vmax /\
   sqrt (phys T (env 0%nat) 2 ^ 2 + phys T (env 1%nat) 2 ^ 2 + phys T (env 2%nat) 2 ^ 2) <= amax).
Proof.
  intros vmin vmax amin amax T env H V A. eexists. split; [reflexivity|]. unfold phys. open_holds.
  rewrite <- !three_norm2 by assumption. cbn [Nat.mul Nat.add].
  pose proof (holds_nil env). tauto.
Qed.

(** ** turning rate through the half-angle tangent *)
Lemma one_sq : forall a, 0 < 1 + a ^ 2.
Proof. intros a. pose proof (pow2_ge_0 a). lra. Qed.
Lemma turn_hi : forall T tg dtg w, 0 < T ->
  (2 * dtg - (1 + tg ^ 2) * T * w <= 0 <-> 2 * (dtg / T) / (1 + tg ^ 2) <= w).
Proof.
  intros T tg dtg w H. pose proof (one_sq tg) as P.
  replace (2 * (dtg / T) / (1 + tg ^ 2)) with ((2 * dtg) / ((1 + tg ^ 2) * T)) by (field; lra).
  apply scaled_hi, Rmult_lt_0_compat; assumption.
Qed.
Lemma turn_lo : forall T tg dtg w, 0 < T ->
  (- (2 * dtg) + (1 + tg ^ 2) * T * w <= 0 <-> w <= 2 * (dtg / T) / (1 + tg ^ 2)).
Proof.
  intros T tg dtg w H. pose proof (one_sq tg) as P.
  replace (2 * (dtg / T) / (1 + tg ^ 2)) with ((2 * dtg) / ((1 + tg ^ 2) * T)) by (field; lra).
  apply scaled_lo, Rmult_lt_0_compat; assumption.
Qed.
Lemma tgdtheta_phys : forall T tg, 0 < T ->
  tgdtheta (phys T tg) = 2 * (tg 1%nat / T) / (1 + tg 0%nat ^ 2).
Proof.
  intros T tg H. unfold tgdtheta, phys. replace (T ^ 0) with 1 by ring. replace (T ^ 1) with T by ring.
  replace (tg 0%nat / 1) with (tg 0%nat) by field. reflexivity.
Qed.
Lemma orient_inf_ok : forall vmin vmax amin amax wmin wmax T env, 0 < T -> exists cs,
  holonomicorient_constraints "norm_inf" vmin vmax amin amax wmin wmax T = Some cs /\
  (holds env cs <->
   (forall i, (i < 2)%nat -> vmin <= phys T (env i) 1 <= vmax /\ amin <= phys T (env i) 2 <= amax) /\
   wmin <= nth 2 (holonomicorient_input (phys T (env 0%nat)) (phys T (env 1%nat)) (phys T (env 2%nat))) 0 <= wmax).
Proof.
  intros vmin vmax amin amax wmin wmax T env H. eexists. split; [reflexivity|].
  cbn [holonomicorient_input nth]. rewrite tgdtheta_phys by exact H. unfold phys. open_holds.
  replace (T ^ 1) with T by ring.
  rewrite turn_hi, turn_lo by exact H.
  rewrite !scaled_lo, !scaled_hi by (try apply pow_T; exact H).
  pose proof (holds_nil env). split.
  - intros K. split; [|tauto]. intros i I. destruct i as [|[|i]]; [tauto|tauto|lia].
  - intros [K W]. pose proof (K 0%nat ltac:(lia)). pose proof (K 1%nat ltac:(lia)). tauto.
Qed.
Lemma orient_two_ok : forall vmin vmax amin amax wmin wmax T env, 0 < T -> 0 <= vmax -> 0 <= amax -> exists cs,
  holonomicorient_constraints "norm_2" vmin vmax amin amax wmin wmax T = Some cs /\
  (holds env cs <->
   sqrt (phys T (env 0%nat) 1 ^ 2 + phys T (env 1%nat) 1 ^ 2) <= vmax /\
   sqrt (phys T (env 0%nat) 2 ^ 2 + phys T (env 1%nat) 2 ^ 2) <= amax /\
   wmin <= nth 2 (holonomicorient_input (phys T (env 0%nat)) (phys T (env 1%nat)) (phys T (env 2%nat))) 0 <= wmax).
Proof.
  intros vmin vmax amin amax wmin wmax T env H V A. eexists. split; [reflexivity|].
  cbn [holonomicorient_input nth]. rewrite tgdtheta_phys by exact H. unfold phys. open_holds.
  rewrite turn_hi, turn_lo by exact H.
  rewrite <- !two_norm2 by assumption. cbn [Nat.mul Nat.add].
  pose proof (holds_nil env). tauto.
Qed.

(** ** tool *)
Lemma axes_ok : forall d lo hi T env, 0 < T ->
  (holds env (axes_cons d lo hi T) <-> forall k, (k < 3)%nat -> lo k <= phys T (env k) d <= hi k).
Proof.
  intros d lo hi T env H. unfold axes_cons, phys. cbn [map]. open_holds.
  rewrite !scaled_lo, !scaled_hi by (apply pow_T; exact H).
  pose proof (holds_nil env). split.
  - intros K k I. destruct k as [|[|[|k]]]; [tauto|tauto|tauto|lia].
  - intros K. pose proof (K 0%nat ltac:(lia)). pose proof (K 1%nat ltac:(lia)). pose proof (K 2%nat ltac:(lia)). tauto.
Qed.
Lemma tool_axes_ok : forall L T env, 0 < T -> exists cs, tool_constraints "axes" L T = Some cs /\
  (holds env cs <-> forall k, (k < 3)%nat ->
     t_vmin L k <= phys T (env k) 1 <= t_vmax L k /\
     t_amin L k <= phys T (env k) 2 <= t_amax L k /\
     t_jmin L k <= phys T (env k) 3 <= t_jmax L k).
Proof.
  intros L T env H. eexists. split; [reflexivity|]. rewrite !holds_app, !axes_ok by exact H.
  split.
  - intros (A & B & C) k K. auto.
  - intros K. split; [|split]; intros k I; apply K; exact I.
Qed.
Lemma tool_machining_ok : forall L T env, 0 < T -> 0 < t_vmax L 0 -> exists cs,
  tool_constraints "machining" L T = Some cs /\
  (holds env cs <->
   sqrt (phys T (env 0%nat) 1 ^ 2 + phys T (env 1%nat) 1 ^ 2) <= t_vmax L 0 /\
   forall k, (k < 3)%nat ->
     t_amin L k <= phys T (env k) 2 <= t_amax L k /\
     t_jmin L k <= phys T (env k) 3 <= t_jmax L k).
Proof.
  intros L T env H V. unfold tool_constraints. cbn [String.eqb Ascii.eqb Bool.eqb].
  destruct (Req_EM_T (t_vmax L 0) 0) as [Z|Z]; [lra|].
  eexists. split; [reflexivity|]. rewrite !holds_app, !axes_ok by exact H. open_holds.
  unfold phys. rewrite <- two_norm2 by (try exact H; lra). cbn [Nat.mul Nat.add].
  pose proof (holds_nil env). split.
  - intros (A & B & C). split; [tauto|]. intros k K. auto.
  - intros (A & K). split; [tauto|]. split; intros k I; apply K; exact I.
Qed.
Lemma tool_z_free : exists L T env cs, 0 < T /\ 0 < t_vmax L 0 /\
  tool_constraints "machining" L T = Some cs /\ holds env cs /\
  t_vmax L 2 < phys T (env 2%nat) 1.
Proof.
  set (L := TL (fun _ => -1) (fun _ => 1) (fun _ => -1) (fun _ => 1) (fun _ => -1) (fun _ => 1)).
  set (env := fun i o : nat => match i, o with 2%nat, 1%nat => 5 | _, _ => 0 end).
  destruct (tool_machining_ok L 1 env) as (cs & E & K); [lra|cbn; lra|].
  exists L, 1, env, cs. split; [lra|]. split; [cbn; lra|]. split; [exact E|]. split.
  - apply K. unfold phys; cbn. split.
    + replace (0 / (1 * 1) * (0 / (1 * 1) * 1) + 0 / (1 * 1) * (0 / (1 * 1) * 1)) with 0 by field. rewrite sqrt_0. lra.
    + intros k I. destruct k as [|[|[|k]]]; try lia; split; cbn; lra.
  - unfold phys; cbn. lra.
Qed.
Lemma tool_common_z : forall c L v w, c_vmin c = Some v -> c_vmax c = Some w ->
  (forall k, (k < 2)%nat -> t_vmin (tool_limits c L) k = v /\ t_vmax (tool_limits c L) k = w) /\
  t_vmin (tool_limits c L) 2 = t_vmin L 2 /\ t_vmax (tool_limits c L) 2 = t_vmax L 2.
Proof.
  intros c L v w A B. unfold tool_limits; cbn. rewrite A, B. split; [|auto].
  intros k K. destruct (Nat.leb_spec k 1); [auto|lia].
Qed.

(** tool and segment *)
Lemma line_dist : forall x1 y1 x2 y2 : R, (x1, y1) <> (x2, y2) ->
  0 < (x2 - x1) ^ 2 + (y2 - y1) ^ 2.
Proof.
  intros x1 y1 x2 y2 N. pose proof (pow2_ge_0 (x2 - x1)). pose proof (pow2_ge_0 (y2 - y1)).
  destruct (Req_dec ((x2 - x1) ^ 2 + (y2 - y1) ^ 2) 0) as [Z|Z]; [|lra].
  exfalso. apply N. assert (A : (x2 - x1) ^ 2 = 0) by lra. assert (B : (y2 - y1) ^ 2 = 0) by lra.
  assert (x2 - x1 = 0) by (apply Rsqr_0_uniq; unfold Rsqr; lra).
  assert (y2 - y1 = 0) by (apply Rsqr_0_uniq; unfold Rsqr; lra).
  f_equal; lra.
Qed.
(** the foot of the perpendicular is within tolerance: the tool stays within
    half the height of the segment's line *)
Lemma tool_straight_ok : forall lims x1 y1 z1 x2 y2 z2 h env, (x1, y1) <> (x2, y2) ->
  (holds env (tool_shape_cons 0 (Straight false lims (x1, y1, z1) (x2, y2, z2) h)) <->
   exists s, sqrt ((env 0%nat 0%nat - (x1 + s * (x2 - x1))) ^ 2 + (env 1%nat 0%nat - (y1 + s * (y2 - y1))) ^ 2) <= h / 2).
Proof.
  intros lims x1 y1 z1 x2 y2 z2 h env N.
  pose proof (line_dist _ _ _ _ N) as P.
  set (x := env 0%nat 0%nat). set (y := env 1%nat 0%nat).
  set (vx := x2 - x1) in *. set (vy := y2 - y1) in *.
  set (q := vx ^ 2 + vy ^ 2) in *.
  assert (S : 0 < sqrt q) by (apply sqrt_lt_R0; exact P).
  assert (SS : sqrt q * sqrt q = q) by (apply sqrt_sqrt; lra).
  set (c := vx * (y - y1) - vy * (x - x1)).
  assert (K : holds env (tool_shape_cons 0 (Straight false lims (x1, y1, z1) (x2, y2, z2) h)) <->
              Rabs c / sqrt q <= h / 2).
  { unfold tool_shape_cons. destruct lims as ((? & ?) & (? & ?)). fold vx vy q. open_holds. fold x y.
    assert (E1 : - vy * (1 / sqrt q) * x + vx * (1 / sqrt q) * y -
                 (- vy * (1 / sqrt q) * x1 + vx * (1 / sqrt q) * y1) = c / sqrt q) by (unfold c; field; lra).
    assert (E2 : - (- vy * (1 / sqrt q) * x) - vx * (1 / sqrt q) * y +
                 (- vy * (1 / sqrt q) * x1 + vx * (1 / sqrt q) * y1) = - (c / sqrt q)) by (unfold c; field; lra).
    rewrite E1, E2.
    replace (Rabs c / sqrt q) with (Rabs (c / sqrt q)).
    2:{ unfold Rdiv. rewrite Rabs_mult, Rabs_inv, (Rabs_right (sqrt q)) by lra. reflexivity. }
    pose proof (holds_nil env). unfold Rabs. destruct (Rcase_abs (c / sqrt q)); split; intros G; intuition lra. }
  rewrite K. clear K N.
  assert (D : forall s, (x - (x1 + s * vx)) ^ 2 + (y - (y1 + s * vy)) ^ 2
     = (c / sqrt q) ^ 2 + (sqrt q * (s - (vx * (x - x1) + vy * (y - y1)) / q)) ^ 2).
  { intros s. replace ((c / sqrt q) ^ 2) with (c ^ 2 / (sqrt q * sqrt q)) by (field; lra).
    replace ((sqrt q * (s - (vx * (x - x1) + vy * (y - y1)) / q)) ^ 2)
      with (sqrt q * sqrt q * (s - (vx * (x - x1) + vy * (y - y1)) / q) ^ 2) by ring.
    rewrite SS.
    unfold c, q. field. fold q. lra. }
  split.
  - intros L. exists ((vx * (x - x1) + vy * (y - y1)) / q). rewrite D.
    replace (_ - _) with 0 by ring.
    replace ((c / sqrt q) ^ 2 + (sqrt q * 0) ^ 2) with ((c / sqrt q)²) by (unfold Rsqr; ring).
    rewrite sqrt_Rsqr_abs. unfold Rdiv. rewrite Rabs_mult, Rabs_inv, (Rabs_right (sqrt q)) by lra. exact L.
  - intros (s & L). rewrite D in L.
    apply Rle_trans with (2 := L).
    replace (Rabs c / sqrt q) with (sqrt ((c / sqrt q)²)).
    2:{ rewrite sqrt_Rsqr_abs. unfold Rdiv. rewrite Rabs_mult, Rabs_inv, (Rabs_right (sqrt q)) by lra. reflexivity. }
    apply sqrt_le_1_alt. unfold Rsqr. pose proof (pow2_ge_0 (sqrt q * (s - (vx * (x - x1) + vy * (y - y1)) / q))). lra.
Qed.
Lemma tool_aligned_ok : forall xlo xhi ylo yhi a b h env,
  (holds env (tool_shape_cons 0 (Straight true ((xlo, xhi), (ylo, yhi)) a b h)) <->
   xlo <= env 0%nat 0%nat <= xhi /\ ylo <= env 1%nat 0%nat <= yhi).
Proof.
  intros. unfold tool_shape_cons. open_holds. pose proof (holds_nil env). intuition lra.
Qed.
Lemma tool_ring_ok : forall cx cy rin rout a b env, 0 <= rin -> 0 <= rout ->
  (holds env (tool_shape_cons 0 (RingSeg (cx, cy) rin rout a b)) <->
   rin <= sqrt ((env 0%nat 0%nat - cx) ^ 2 + (env 1%nat 0%nat - cy) ^ 2) <= rout).
Proof.
  intros cx cy rin rout a b env A B. unfold tool_shape_cons. open_holds.
  set (x := env 0%nat 0%nat - cx). set (y := env 1%nat 0%nat - cy).
  assert (P : 0 <= x ^ 2 + y ^ 2) by (pose proof (pow2_ge_0 x); pose proof (pow2_ge_0 y); lra).
  rewrite sqrt_le_iff by assumption.
  assert (E : rin <= sqrt (x ^ 2 + y ^ 2) <-> rin ^ 2 <= x ^ 2 + y ^ 2).
  { split; intros L.
    - rewrite <- (pow2_sqrt (x ^ 2 + y ^ 2)) by exact P. apply pow_incr. lra.
    - rewrite <- (sqrt_pow2 rin A). apply sqrt_le_1_alt. exact L. }
  rewrite E. rewrite Rplus_0_r, Rminus_0_r. pose proof (holds_nil env). intuition lra.
Qed.
Lemma tool_z_ok : forall s env, snd (seg_start s) <> snd (seg_end s) ->
  (holds env (tool_z_cons 0 s) <->
   Rmin (snd (seg_start s)) (snd (seg_end s)) <= env 2%nat 0%nat <= Rmax (snd (seg_start s)) (snd (seg_end s))).
Proof.
  intros s env N. unfold tool_z_cons. destruct (Req_EM_T _ _); [contradiction|].
  open_holds. pose proof (holds_nil env). intuition lra.
Qed.
(** a movement in the plane leaves z free *)
Lemma tool_z_free_in_plane : forall s, snd (seg_start s) = snd (seg_end s) -> tool_z_cons 0 s = [].
Proof. intros s E. unfold tool_z_cons. destruct (Req_EM_T _ _); [reflexivity|contradiction]. Qed.

(** ** arrival *)
Lemma norm_spec : forall v, norm v = sqrt (sumsq v).
Proof.
  intros v. unfold norm. f_equal. induction v as [|a v IH]; [reflexivity|].
  cbn [fold_right sumsq]. rewrite IH. ring.
Qed.
Lemma gtb_iff : forall a b, gtb a b = true <-> b < a.
Proof. intros a b. unfold gtb. destruct (Rlt_dec b a); split; intros; try reflexivity; try discriminate; tauto. Qed.
Lemma gtb_not : forall a b, gtb a b = false <-> a <= b.
Proof. intros a b. unfold gtb. destruct (Rlt_dec b a); split; intros; try reflexivity; try discriminate; lra. Qed.
Lemma arrived_ok : forall tol err input, tol < 1 ->
  (arrived tol err input = true <-> sqrt (sumsq err) <= tol /\ sqrt (sumsq input) <= tol).
Proof.
  intros tol err input H. rewrite <- !norm_spec. unfold arrived, py_or.
  destruct (gtb (norm err) tol) eqn:G; cbn [py_num].
  - apply gtb_iff in G. replace (gtb 1 tol) with true by (symmetry; apply gtb_iff; exact H). cbn.
    split; [discriminate|]. intros [A _]. lra.
  - apply gtb_not in G. rewrite negb_true_iff, gtb_not. tauto.
Qed.
Lemma arrived_big_tol : forall tol err input, 1 <= tol ->
  (arrived tol err input = true <-> (tol < sqrt (sumsq err) \/ sqrt (sumsq input) <= tol)).
Proof.
  intros tol err input H. rewrite <- !norm_spec. unfold arrived, py_or.
  destruct (gtb (norm err) tol) eqn:G; cbn [py_num].
  - apply gtb_iff in G. replace (gtb 1 tol) with false by (symmetry; apply gtb_not; exact H). cbn. tauto.
  - apply gtb_not in G. rewrite negb_true_iff, gtb_not. split; [auto|]. intros [A|A]; [lra|exact A].
Qed.
(** with a tolerance of one or more a vehicle that is far away counts as
    arrived however fast it moves *)
Lemma arrived_refuted : exists tol err input, 0 < tol /\ arrived tol err input = true /\
  ~ (sqrt (sumsq err) <= tol) /\ ~ (sqrt (sumsq input) <= tol).
Proof.
  exists 1, [5; 0], [3; 0].
  assert (A : sqrt (sumsq [5; 0]) = 5).
  { replace (sumsq [5; 0]) with (5 ^ 2) by (cbn; ring). apply sqrt_pow2. lra. }
  assert (B : sqrt (sumsq [3; 0]) = 3).
  { replace (sumsq [3; 0]) with (3 ^ 2) by (cbn; ring). apply sqrt_pow2. lra. }
  split; [lra|]. split; [apply arrived_big_tol; [lra|]; left; lra|]. split; lra.
Qed.
Lemma arrived3d_ok : forall tol g err input,
  (arrived3d tol g err input = true <-> sqrt (sumsq err) <= tol /\ sqrt (sumsq input) <= g + tol).
Proof.
  intros tol g err input. rewrite <- !norm_spec. unfold arrived3d.
  rewrite negb_true_iff, orb_false_iff, !gtb_not. intuition lra.
Qed.
(** a falling quadrotor (no thrust) at the goal counts as arrived *)
Lemma arrived3d_refuted : exists tol g err, 0 < tol /\ tol < g /\ arrived3d tol g err [0; 0; 0] = true.
Proof.
  exists (1/100), (981/100), [0]. split; [lra|]. split; [lra|].
  apply arrived3d_ok. replace (sumsq [0]) with 0 by (cbn; ring). replace (sumsq [0; 0; 0]) with 0 by (cbn; ring).
  rewrite sqrt_0. lra.
Qed.
Lemma sumsq_one : forall a, sqrt (sumsq [a]) = Rabs a.
Proof. intros a. replace (sumsq [a]) with (a²) by (cbn; unfold Rsqr; ring). apply sqrt_Rsqr_abs. Qed.
Lemma arrived_trailer_ok : forall tol th thT lead,
  (arrived_trailer tol th thT lead = true <->
   lead = true /\ forall a, thT = Some a -> Rabs (th - a) <= tol).
Proof.
  intros tol th thT lead. unfold arrived_trailer. rewrite andb_true_iff.
  destruct thT as [a|].
  - rewrite negb_true_iff, gtb_not, norm_spec, sumsq_one. split; intros [A B]; (split; [exact A|]).
    + intros c E. replace c with a by congruence. exact B.
    + apply B. reflexivity.
  - split; intros [A B]; split; auto. intros c E. discriminate.
Qed.
