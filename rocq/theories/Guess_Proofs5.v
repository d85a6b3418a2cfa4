(** Guesses that are given by hand or reset during a run, guesses at the
    definition of the variables, and goals that cannot be reached. *)
From Coq Require Import String Reals List Arith Bool Lia Lra.
From Verif Require Import Spline_Model Spline_Spec Guess_Model Guess_Spec Guess_Proofs Guess_Proofs2 Guess_Proofs3 Guess_Proofs4.
From Verif Require Vehicle_Spec Vehicle_Model Vehicle_Proofs2.
From Verif Require Import Splop_Spec Splop_Proofs4.
Import ListNotations.
Local Open Scope R_scope.
Local Notation length := List.length.

(* ---------- without a guess ---------- *)
Definition not_one (x : given) : Prop := match x with One _ => False | _ => True end.
Lemma built_shape : forall vs l, built vs = Ok l -> length l = length vs /\ Forall not_one l.
Proof.
  induction vs as [|v r IH]; intros l E; cbn [built] in E.
  - injection E as <-. split; [reflexivity|constructor].
  - destruct (init_value v None) as [g|e]; [|discriminate]. destruct (built r) as [l'|e]; [|discriminate].
    injection E as <-. destruct (IH l' eq_refl) as [A B]. cbn [length]. split; [lia|]. constructor; [destruct g; exact Logic.I|exact B].
Qed.
Lemma put_not_one : forall i k n x m, not_one x -> exists e, put i k n x m = Raise e.
Proof.
  intros i k n [a|l|q c] m H; cbn in *; [contradiction|eauto|]. destruct (q =? n)%nat; eauto.
Qed.
Theorem reset_raises : forall vs m, vs <> [] -> exists e, reset_init_guess None vs m = Raise e.
Proof.
  intros vs m H. unfold reset_init_guess. destruct (built vs) as [l|e] eqn:B; [|exists e; reflexivity].
  destruct (built_shape vs l B) as [L F]. destruct vs as [|v r]; [congruence|]. cbn [put_vehicles].
  destruct (v_seg v) as [n|]; [|eauto]. destruct (length l =? n)%nat; [|eauto].
  destruct l as [|x l']; [cbn in L; lia|]. inversion F as [|? ? X _]; subst. cbn [put_all].
  destruct (put_not_one 0 0 (v_spl v) x m X) as (e & E). rewrite E. eauto.
Qed.
Theorem timeout_raises : forall vs m, vs <> [] ->
  (exists e, after_solve "Maximum_CpuTime_Exceeded" false vs m = Raise e) /\
  after_solve "Maximum_CpuTime_Exceeded" true vs m = Ok m /\
  forall s first, s <> "Maximum_CpuTime_Exceeded"%string -> after_solve s first vs m = Ok m.
Proof.
  intros vs m H. split; [|split; [reflexivity|]].
  - destruct (reset_raises vs m H) as (e & E). exists e. exact E.
  - intros s f N. unfold after_solve. destruct (String.eqb_spec s "Maximum_CpuTime_Exceeded"); [contradiction|reflexivity].
Qed.

(* ---------- with a guess ---------- *)
Lemma put_all_ok : forall i n l k m, Forall (fun a => exists r, has_shape r n a = true) l ->
  exists m', put_all i k n (map One l) m = Ok m' /\
    (forall j a, nth_error l j = Some a -> m' i (k + j)%nat = a) /\
    (forall i' j, i' <> i \/ ~ (k <= j < k + length l)%nat -> m' i' j = m i' j).
Proof.
  intros i n. induction l as [|a r IH]; intros k m F.
  - exists m. split; [reflexivity|]. split; [intros [|j] a E; discriminate|auto].
  - inversion F as [|? ? (q & X) F']; subst. cbn [map put_all]. destruct a as [v|q' cs]; [discriminate|].
    cbn [has_shape] in X. apply andb_prop in X. destruct X as [_ X]. cbn [put]. rewrite X.
    destruct (IH (S k) (set_var i k (A2 q' cs) m) F') as (m' & M & A & B). exists m'. split; [exact M|]. split.
    + intros [|j] a E; cbn [nth_error] in E.
      * injection E as <-. rewrite Nat.add_0_r, B by lia. apply set_var_same.
      * replace (k + S j)%nat with (S k + j)%nat by lia. apply A, E.
    + intros i' j H. cbn [length] in H. rewrite B by lia. apply set_var_other. lia.
Qed.
Lemma put_all_back : forall i n l k m m', put_all i k n (map One l) m = Ok m' -> Forall (fun a => exists r, has_shape r n a = true) l.
Proof.
  intros i n. induction l as [|a r IH]; intros k m m' E; [constructor|]. cbn [map put_all] in E.
  destruct (put i k n (One a) m) as [m1|e] eqn:P; [|discriminate]. constructor; [|eapply IH; exact E].
  destruct a as [v|q cs]; cbn [put] in P; [discriminate|]. destruct (Nat.eqb_spec (length cs) n); [|discriminate].
  exists q. cbn. rewrite Nat.eqb_refl. subst. apply Nat.eqb_refl.
Qed.
Lemma put_vehicles_ok : forall l vs i m,
  (forall v, In v vs -> v_seg v = Some (length l) /\ Forall (fun a => exists r, has_shape r (v_spl v) a = true) l) ->
  exists m', put_vehicles i vs (map One l) m = Ok m' /\
    (forall k j a, (k < length vs)%nat -> nth_error l j = Some a -> m' (i + k)%nat j = a) /\
    (forall i' j, (i' < i \/ i + length vs <= i' \/ length l <= j)%nat -> m' i' j = m i' j).
Proof.
  intros l. induction vs as [|v r IH]; intros i m V.
  - exists m. split; [reflexivity|]. split; [intros k j a K; cbn in K; lia|auto].
  - destruct (V v (or_introl eq_refl)) as [N F]. cbn [put_vehicles]. rewrite N, map_length, Nat.eqb_refl.
    destruct (put_all_ok i (v_spl v) l 0 m F) as (m1 & M1 & A1_ & B1). rewrite M1.
    destruct (IH (S i) m1 ltac:(intros u X; apply V; right; exact X)) as (m' & M & A & B). exists m'. split; [exact M|]. split.
    + intros [|k] j a K E.
      * rewrite Nat.add_0_r, B by lia. apply (A1_ j a E).
      * replace (i + S k)%nat with (S i + k)%nat by lia. cbn [length] in K. apply A; [lia|exact E].
    + intros i' j H. cbn [length] in H. rewrite B by lia. apply B1. lia.
Qed.
Theorem reset_given : forall vs l m,
  (forall v, In v vs -> v_seg v = Some (length l) /\ Forall (fun a => exists r, has_shape r (v_spl v) a = true) l) ->
  exists m', reset_init_guess (Some l) vs m = Ok m' /\
    (forall i j a, (i < length vs)%nat -> nth_error l j = Some a -> m' i j = a) /\
    (forall i j, (length vs <= i \/ length l <= j)%nat -> m' i j = m i j).
Proof.
  intros vs l m V. destruct (put_vehicles_ok l vs 0 m V) as (m' & M & A & B). exists m'. split; [exact M|]. split.
  - intros i j a I E. apply (A i j a I E).
  - intros i j H. apply B. lia.
Qed.
Lemma put_vehicles_back : forall l vs i m m', put_vehicles i vs (map One l) m = Ok m' ->
  forall v, In v vs -> v_seg v = Some (length l) /\ Forall (fun a => exists r, has_shape r (v_spl v) a = true) l.
Proof.
  intros l. induction vs as [|u r IH]; intros i m m' E v X; [contradiction|]. cbn [put_vehicles] in E.
  destruct (v_seg u) as [n|] eqn:N; [|discriminate]. rewrite map_length in E. destruct (Nat.eqb_spec (length l) n); [|discriminate].
  destruct (put_all i 0 (v_spl u) (map One l) m) as [m1|er] eqn:P; [|discriminate]. destruct X as [<-|X].
  - split; [rewrite N; subst; reflexivity|eapply put_all_back; exact P].
  - eapply IH; eauto.
Qed.
Theorem reset_given_back : forall vs l m m', reset_init_guess (Some l) vs m = Ok m' ->
  forall v, In v vs -> v_seg v = Some (length l) /\ Forall (fun a => exists r, has_shape r (v_spl v) a = true) l.
Proof. intros vs l m m' E. exact (put_vehicles_back l vs 0 m m' E). Qed.

(* ---------- guesses at the definition ---------- *)
Lemma accept_spec : forall b c n values d, (n <= length values)%nat -> Forall (fun a => has_shape b c a = true) (firstn n values) ->
  accept b c values n d = (d ++ map Some (firstn n values), None).
Proof.
  intros b c. induction n as [|n IH]; intros values d L F; [destruct values; cbn; rewrite app_nil_r; reflexivity|].
  destruct values as [|a r]; [cbn in L; lia|]. cbn [firstn] in *. inversion F as [|? ? X F']; subst. cbn [accept]. rewrite X.
  rewrite IH by (cbn in L; try lia; exact F'). rewrite <- app_assoc. reflexivity.
Qed.
Lemma accept_back : forall b c n values d l, accept b c values n d = (l, None) ->
  (n <= length values)%nat /\ Forall (fun a => has_shape b c a = true) (firstn n values).
Proof.
  intros b c. induction n as [|n IH]; intros values d l E; [split; [lia|destruct values; constructor]|].
  destruct values as [|a r]; [discriminate|]. cbn [accept] in E. destruct (has_shape b c a) eqn:H; [|discriminate].
  destruct (IH _ _ _ E) as [A B]. cbn [length firstn]. split; [lia|constructor; assumption].
Qed.
Lemma firstn_map_some : forall (b : bbasis) c n (l : list arr), length l = n ->
  map (fun x => match x with Some a => a | None => zeros b c end) (firstn n (map Some l)) = l.
Proof.
  intros b c n l <-. rewrite <- (map_length Some l), firstn_all, map_map. apply map_id.
Qed.
(** a guess of the right shape is used by the next definition, and by that one only *)
Theorem guess_used : forall b c values n, length values = n ->
  ((exists l, set_init_spline_values b c values n = (l, None)) <-> Forall (fun a => has_shape (rows b) c a = true) values) /\
  (Forall (fun a => has_shape (rows b) c a = true) values ->
     let l := fst (set_init_spline_values b c values n) in
     define_splines b c (Some l) n = (Ok values, None)).
Proof.
  intros b c values n L. unfold set_init_spline_values. assert (FN : firstn n values = values) by (rewrite <- L; apply firstn_all).
  split; [split|].
  - intros [l E]. destruct (accept_back _ _ _ _ _ _ E) as [_ F]. rewrite FN in F. exact F.
  - intros F. eexists. apply accept_spec; [lia|rewrite FN; exact F].
  - intros F. cbv zeta. rewrite accept_spec by (try lia; rewrite FN; exact F). cbn [fst app]. rewrite FN. unfold define_splines.
    rewrite map_length, L. rewrite (proj2 (Nat.ltb_ge n n)) by lia. rewrite firstn_map_some by exact L. reflexivity.
Qed.
Lemma map_repeat_none : forall (z : arr) n,
  map (fun x => match x with Some a => a | None => z end) (repeat None n) = repeat z n.
Proof. intros z. induction n as [|n IH]; cbn; [reflexivity|]. rewrite IH. reflexivity. Qed.
Lemma accept_reject : forall b c n values d l e, accept b c values n d = (l, Some e) ->
  exists k, (k < n)%nat /\ (k <= length values)%nat /\ l = d ++ map Some (firstn k values) ++ repeat None (n - k) /\
    Forall (fun a => has_shape b c a = true) (firstn k values) /\
    match nth_error values k with None => e = "IndexError"%string | Some a => has_shape b c a = false /\ e = "ValueError"%string end.
Proof.
  intros b c. induction n as [|n IH]; intros values d l e E; [destruct values; discriminate|].
  destruct values as [|a r].
  - injection E as <- <-. exists 0%nat. split; [lia|]. split; [apply Nat.le_0_l|]. split; [reflexivity|]. split; [constructor|reflexivity].
  - cbn [accept] in E. destruct (has_shape b c a) eqn:H.
    + destruct (IH _ _ _ _ E) as (k & K & KL & L & F & X). exists (S k). split; [lia|]. split; [cbn; lia|]. split; [|split; [constructor; assumption|exact X]].
      rewrite L, <- app_assoc. reflexivity.
    + injection E as <- <-. exists 0%nat. split; [lia|]. split; [apply Nat.le_0_l|]. split; [reflexivity|]. split; [constructor|]. split; [exact H|reflexivity].
Qed.
(** a guess that is refused leaves the segments before the fault *)
Theorem guess_refused : forall b c values n l e, set_init_spline_values b c values n = (l, Some e) ->
  exists k, (k < n)%nat /\ (k <= length values)%nat /\ Forall (fun a => has_shape (rows b) c a = true) (firstn k values) /\
    match nth_error values k with None => e = "IndexError"%string | Some a => has_shape (rows b) c a = false /\ e = "ValueError"%string end /\
    define_splines b c (Some l) n = (Ok (firstn k values ++ repeat (zeros b c) (n - k)), None).
Proof.
  intros b c values n l e E. destruct (accept_reject _ _ _ _ _ _ _ E) as (k & K & KL & L & F & X). exists k.
  split; [exact K|]. split; [exact KL|]. split; [exact F|]. split; [exact X|].
  assert (LL : length l = n) by (rewrite L; cbn [app]; rewrite app_length, map_length, repeat_length, firstn_length; lia).
  unfold define_splines. rewrite LL, (proj2 (Nat.ltb_ge n n)) by lia. rewrite <- LL at 1. rewrite firstn_all, L. cbn [app].
  rewrite map_app, map_map, map_id, map_repeat_none. reflexivity.
Qed.
Theorem guess_default : forall b c n, define_splines b c None n = (Ok (repeat (zeros b c) n), None).
Proof.
  intros b c n. unfold define_splines. rewrite repeat_length, (proj2 (Nat.ltb_ge n n)) by lia.
  rewrite <- (repeat_length (@None arr) n) at 1. rewrite firstn_all, map_repeat_none. reflexivity.
Qed.
Theorem guess_zero : forall b c n, exists l, define_splines b c None n = (Ok l, None) /\ length l = n /\
  forall a, In a l -> shaped (rows b) c a /\ forall v x, In v (columns_of a) -> In x v -> x = 0.
Proof.
  intros b c n. exists (repeat (zeros b c) n). split; [apply guess_default|]. split; [apply repeat_length|].
  intros a H. apply repeat_spec in H. subst a. unfold zeros, shaped. cbn [columns_of]. split; [split; [apply repeat_length|split; [|reflexivity]]|].
  - intros v V. apply repeat_spec in V. subst v. apply flat_length.
  - intros v x V X. apply repeat_spec in V. subst v. apply repeat_spec in X. exact X.
Qed.
(** so the guess of the vehicle itself is not what the variables start with *)
Definition qbasis : bbasis := mkB [0; 0; 0; 1/4; 1/2; 3/4; 1; 1; 1] 2.
Lemma qbasis_good : good_basis qbasis.
Proof.
  split; [split; [split; [knots_ok|simpl; lia]|unfold clamped; simpl; repeat split; lra]|split; [simpl; lia|]].
  intros t Ht k Hk [K1 K2]. cbn [qbasis knots degree List.length] in *. (do 8 (destruct k as [|k]; [cbn in K1, K2; lra|])). cbn in Hk. lia.
Qed.
Theorem guess_default_refuted : exists b s g a, good_basis b /\ init_value (Single Holonomic b (Some 1%nat) s g) None = Ok (GList [a]) /\
  fst (define_splines b 2 None 1) <> Ok [a].
Proof.
  exists qbasis, (fun _ => 1), (fun _ => 1).
  eexists. split; [exact qbasis_good|split; [reflexivity|]].
  rewrite guess_default. cbn. intros E. injection E as E _ _ _. lra.
Qed.

(* ---------- goals out of reach ---------- *)
Lemma sumsq_nonneg : forall l, 0 <= Vehicle_Spec.sumsq l.
Proof. induction l as [|a r IH]; cbn [Vehicle_Spec.sumsq]; [lra|]. pose proof (pow2_ge_0 a). lra. Qed.
Lemma sumsq_in : forall l x, In x l -> Rabs x <= sqrt (Vehicle_Spec.sumsq l).
Proof.
  intros l x H. rewrite <- sqrt_Rsqr_abs. apply sqrt_le_1_alt. induction l as [|a r IH]; [contradiction|].
  cbn [Vehicle_Spec.sumsq]. destruct H as [->|H].
  - pose proof (sumsq_nonneg r). unfold Rsqr. lra.
  - pose proof (pow2_ge_0 a). specialize (IH H). lra.
Qed.
(** an angle that comes out of a spline for tan(angle/2) stays away from the goal *)
Theorem heading_unreachable : forall tol x y xT yT thT tg input, 0 <= tol < 1 -> PI + tol <= Rabs thT ->
  Vehicle_Model.arrived tol [x - xT; y - yT; 2 * atan tg - thT] input = false.
Proof.
  intros tol x y xT yT thT tg input T H. destruct (Vehicle_Model.arrived _ _ _) eqn:E; [|reflexivity]. exfalso.
  apply Vehicle_Proofs2.arrived_ok in E; [|lra]. destruct E as [E _].
  pose proof (sumsq_in [x - xT; y - yT; 2 * atan tg - thT] (2 * atan tg - thT) ltac:(cbn; auto)) as K.
  pose proof (atan_bound tg). revert K H. unfold Rabs. repeat destruct Rcase_abs; intros; lra.
Qed.
Theorem trailer_unreachable : forall tol tg thT lead, 0 <= tol -> PI + tol <= Rabs thT ->
  Vehicle_Model.arrived_trailer tol (2 * atan tg) (Some thT) lead = false.
Proof.
  intros tol tg thT lead T H. destruct (Vehicle_Model.arrived_trailer _ _ _ _) eqn:E; [|reflexivity]. exfalso.
  apply Vehicle_Proofs2.arrived_trailer_ok in E. destruct E as [_ E]. specialize (E thT eq_refl).
  pose proof (atan_bound tg). revert E H. unfold Rabs. repeat destruct Rcase_abs; intros; lra.
Qed.
(** yet the guess and the terminal constraint see the same tangent *)
Lemma half_tan_period : forall x, cos (x / 2) <> 0 -> half_tan (x + 2 * PI) = half_tan x.
Proof.
  intros x C. unfold half_tan. replace ((x + 2 * PI) / 2) with (x / 2 + PI) by field. unfold tan.
  rewrite neg_sin, neg_cos. field. exact C.
Qed.
