From Coq Require Import ZArith List Lia Reals Lra.
From Verif Require Import Movie_Model Movie_Spec.
Import ListNotations.
Local Open Scope Z_scope.

Lemma up_div : forall n s, 0 < s -> 0 <= n -> let q := (n + s - 1) / s in 0 <= q /\ (q - 1) * s < n <= q * s \/ n = 0 /\ q = 0.
Proof.
  intros n s S N q. pose proof (Z.div_mod (n + s - 1) s ltac:(lia)) as D.
  pose proof (Z.mod_pos_bound (n + s - 1) s S) as M. fold q in D.
  destruct (Z.eq_dec n 0) as [->|NE].
  - right. split; [reflexivity|]. unfold q. apply Z.div_small. lia.
  - left. split; [unfold q; apply Z.div_pos; lia|]. nia.
Qed.

Lemma range_form : forall n s, 0 < s -> 0 < n -> exists c : nat,
  py_range n s = Some (map (fun k => Z.of_nat k * s) (seq 0 c)) /\ (0 < c)%nat /\
  (Z.of_nat c - 1) * s < n <= Z.of_nat c * s.
Proof.
  intros n s S N. unfold py_range. destruct (Z.eqb_spec s 0); [lia|]. destruct (Z.ltb_spec s 0); [lia|].
  exists (Z.to_nat ((n + s - 1) / s)). split; [reflexivity|].
  destruct (up_div n s S ltac:(lia)) as [(A & B)|(A & B)]; [|lia].
  rewrite Z2Nat.id by exact A. split; [|exact B].
  assert (0 < (n + s - 1) / s); [|lia]. apply Z.div_str_pos. lia.
Qed.

Lemma nof_le : forall n req, nof n req <= n.
Proof. intros n [r|]; unfold nof; [destruct (Z.leb_spec r n); lia|lia]. Qed.

Lemma step_pos : forall n f, 2 <= f <= n -> 1 <= n / (f - 1).
Proof. intros n f H. apply Z.div_le_lower_bound; lia. Qed.

(** the number c of sampled frames *)
Lemma movie_form : forall n req, 2 <= nof n req -> exists s c,
  s = n / (nof n req - 1) /\ 1 <= s /\ (0 < c)%nat /\ (Z.of_nat c - 1) * s < n <= Z.of_nat c * s /\
  nof n req - 1 <= Z.of_nat c /\
  movie_tikz n req = Some (map (fun k => Z.of_nat k * s) (seq 0 c)) /\
  movie n req = Some (map (fun k => Z.of_nat k * s) (seq 0 c) ++ repeat n (Z.to_nat (nof n req - Z.of_nat c))).
Proof.
  intros n req F. pose proof (nof_le n req) as L. set (f := nof n req) in *.
  pose proof (step_pos n f ltac:(lia)) as S.
  destruct (range_form n (n / (f - 1)) ltac:(lia) ltac:(lia)) as (c & R & C & B).
  exists (n / (f - 1)), c. split; [reflexivity|]. split; [exact S|]. split; [exact C|]. split; [exact B|].
  split.
  { pose proof (Z.mul_div_le n (f - 1) ltac:(lia)) as D. nia. }
  assert (SS : subsample n f = Some (n / (f - 1))) by (unfold subsample; destruct (Z.eqb_spec (f - 1) 0); [lia|reflexivity]).
  split; [unfold movie_tikz; fold f; rewrite SS; exact R|].
  unfold movie. fold f. rewrite SS, R, map_length, seq_length. reflexivity.
Qed.

Lemma forward_app : forall a b, forward a -> forward b -> (forall x y, In x a -> In y b -> x <= y) -> forward (a ++ b).
Proof.
  induction a as [|x a IH]; intros b A B H; [exact B|].
  destruct a as [|y a].
  - destruct b as [|z b]; [exact I|]. split; [apply H; left; reflexivity|exact B].
  - destruct A as [A1 A2]. split; [exact A1|]. apply (IH b A2 B). intros u v U V. apply H; [right; exact U|exact V].
Qed.

Lemma forward_multiples : forall s, 0 <= s -> forall c a, forward (map (fun k => Z.of_nat k * s) (seq a c)).
Proof.
  intros s S c. induction c as [|c IH]; intro a; [exact I|].
  destruct c as [|c]; [exact I|]. split; [nia|]. exact (IH (Datatypes.S a)).
Qed.

Lemma forward_repeat : forall n c, forward (repeat n c).
Proof. intros n c. induction c as [|c IH]; [exact I|]. destruct c; [exact I|]. split; [lia|exact IH]. Qed.

Lemma multiples_in : forall s c x, In x (map (fun k => Z.of_nat k * s) (seq 0 c)) ->
  exists k, (k < c)%nat /\ x = Z.of_nat k * s.
Proof. intros s c x H. apply in_map_iff in H. destruct H as (k & <- & I). apply in_seq in I. exists k. split; [lia|reflexivity]. Qed.

Theorem movie_runs : forall n req, 2 <= nof n req -> exists ix, movie n req = Some ix /\
  valid n ix /\ forward ix /\ nth 0 ix (-1) = 0 /\
  nof n req <= Z.of_nat (length ix) <= 2 * (nof n req - 1).
Proof.
  intros n req F. pose proof (nof_le n req) as L.
  destruct (movie_form n req F) as (s & c & ES & S & C & B & CF & _ & M).
  eexists. split; [exact M|]. set (f := nof n req) in *.
  assert (IN : forall x, In x (map (fun k => Z.of_nat k * s) (seq 0 c)) -> 0 <= x < n).
  { intros x I. destruct (multiples_in _ _ _ I) as (k & K & ->). split; [nia|]. nia. }
  split; [|split; [|split]].
  - apply Forall_app. split; apply Forall_forall.
    + intros x I. specialize (IN x I). lia.
    + intros x I. apply repeat_spec in I. lia.
  - apply forward_app; [apply forward_multiples; lia|apply forward_repeat|].
    intros x y X Y. apply repeat_spec in Y. specialize (IN x X). lia.
  - destruct c as [|c]; [lia|]. cbn. reflexivity.
  - rewrite app_length, map_length, seq_length, repeat_length.
    assert (U : Z.of_nat c <= 2 * (f - 1)).
    { assert (n < (s + 1) * (f - 1)).
      { pose proof (Z.div_mod n (f - 1) ltac:(lia)). pose proof (Z.mod_pos_bound n (f - 1) ltac:(lia)). rewrite <- ES in *. nia. }
      nia. }
    lia.
Qed.

(** the last sample is shown exactly when the requested number of steps
    divides the number of steps *)
Theorem last_shown : forall n req ix, 2 <= nof n req -> movie n req = Some ix ->
  (In n ix <-> (nof n req - 1 | n)).
Proof.
  intros n req ix F E. pose proof (nof_le n req) as L.
  destruct (movie_form n req F) as (s & c & ES & S & C & B & CF & _ & M). rewrite M in E. injection E as <-.
  set (f := nof n req) in *.
  assert (IFF : In n (map (fun k => Z.of_nat k * s) (seq 0 c) ++ repeat n (Z.to_nat (f - Z.of_nat c))) <-> Z.of_nat c < f).
  { split.
    - intro I. apply in_app_iff in I. destruct I as [I|I].
      + destruct (multiples_in _ _ _ I) as (k & K & EK). exfalso. nia.
      + destruct (Z.to_nat (f - Z.of_nat c)) eqn:Q; [contradiction|lia].
    - intro H. apply in_app_iff. right. destruct (Z.to_nat (f - Z.of_nat c)) eqn:Q; [lia|left; reflexivity]. }
  rewrite IFF. split.
  - intro H. assert (EC : Z.of_nat c = f - 1) by lia. exists s. 
    pose proof (Z.mul_div_le n (f - 1) ltac:(lia)) as D. rewrite <- ES in D. nia.
  - intros [q Q]. assert (EQ : s = q) by (rewrite ES, Q; apply Z.div_mul; lia).
    subst s. nia.
Qed.

(** all defaults: every sample but the last *)
Theorem default_movie : forall n, 3 <= n -> movie n None = Some (map Z.of_nat (seq 0 (Z.to_nat n))).
Proof.
  intros n N. unfold movie, nof, subsample. destruct (Z.eqb_spec (n - 1) 0); [lia|].
  assert (S : n / (n - 1) = 1) by (symmetry; apply (Z.div_unique n (n - 1) 1 1); lia).
  rewrite S. unfold py_range. cbn [Z.eqb Z.ltb Z.compare]. rewrite Z.div_1_r.
  replace (Z.to_nat (n + 1 - 1)) with (Z.to_nat n) by lia.
  rewrite map_length, seq_length. replace (Z.to_nat (n - Z.of_nat (Z.to_nat n))) with 0%nat by lia.
  cbn [repeat]. rewrite app_nil_r. f_equal. apply map_ext. intro k. lia.
Qed.

Theorem default_last_refuted : forall n ix, 3 <= n -> movie n None = Some ix -> ~ In n ix.
Proof.
  intros n ix N E I. apply (last_shown n None ix) in I; [|unfold nof; lia|exact E].
  unfold nof in I. destruct I as [q Q]. destruct (Z_lt_le_dec q 2); nia.
Qed.

Theorem more_frames_refuted : exists n r ix, 2 <= r <= n /\ movie n (Some r) = Some ix /\ Z.of_nat (length ix) > r.
Proof. exists 10, 7. eexists. split; [lia|]. split; [reflexivity|]. vm_compute. reflexivity. Qed.

(** when there is a movie at all *)
Theorem movie_defined : forall n req, 0 <= n -> ((exists ix, movie n req = Some ix) <-> 1 <= n /\ nof n req <> 1).
Proof.
  intros n req N. pose proof (nof_le n req) as L.
  destruct (Z_lt_le_dec (nof n req) 2) as [A|A].
  2: { split; [intros _; lia|]. intros _. destruct (movie_runs n req A) as (ix & E & _). exists ix. exact E. }
  unfold movie, subsample. set (f := nof n req) in *. destruct (Z.eqb_spec (f - 1) 0) as [Z|NZ].
  - split; [intros (ix & E); discriminate|intros [_ H]; lia].
  - unfold py_range. destruct (Z.eqb_spec (n / (f - 1)) 0) as [Q|Q].
    + split; [intros (ix & E); discriminate|]. intros [H _]. exfalso.
      pose proof (Z.div_mod n (f - 1) ltac:(lia)) as D. pose proof (Z.mod_neg_bound n (f - 1) ltac:(lia)). nia.
    + split; [|intros _; destruct (Z.ltb_spec (n / (f - 1)) 0); eexists; reflexivity].
      intros _. split; [|lia]. destruct (Z.eq_dec n 0) as [->|]; [|lia]. elim Q. apply Z.div_0_l. lia.
Qed.

Theorem single_frame_refuted : forall n, 1 <= n -> movie n (Some 1) = None.
Proof. intros n N. unfold movie, nof. destruct (Z.leb_spec 1 n); [reflexivity|lia]. Qed.

(** zero or fewer frames requested: nothing is shown *)
Theorem empty_movie : forall n r, 1 <= n -> r <= 0 -> movie n (Some r) = Some [].
Proof.
  intros n r N R. unfold movie, nof. destruct (Z.leb_spec r n); [|lia]. unfold subsample.
  destruct (Z.eqb_spec (r - 1) 0); [lia|].
  assert (Q : n / (r - 1) < 0).
  { pose proof (Z.div_mod n (r - 1) ltac:(lia)) as D. pose proof (Z.mod_neg_bound n (r - 1) ltac:(lia)). nia. }
  unfold py_range. destruct (Z.eqb_spec (n / (r - 1)) 0); [lia|]. destruct (Z.ltb_spec (n / (r - 1)) 0); [|lia].
  set (s := n / (r - 1)) in *.
  assert (QZ : (- n + - s - 1) / - s <= 0) by (apply Z.lt_succ_r; apply Z.div_lt_upper_bound; lia).
  replace (Z.to_nat ((- n + - s - 1) / - s)) with 0%nat by lia. cbn [seq map length app].
  replace (Z.to_nat (r - Z.of_nat 0)) with 0%nat by lia. reflexivity.
Qed.

(** the tikz format never shows the last sample *)
Theorem tikz_last_refuted : forall n req ix, 2 <= nof n req -> movie_tikz n req = Some ix -> ~ In n ix.
Proof.
  intros n req ix F E I. destruct (movie_form n req F) as (s & c & ES & S & C & B & CF & T & _).
  rewrite T in E. injection E as <-. destruct (multiples_in _ _ _ I) as (k & K & EK). nia.
Qed.

Theorem mix_colour : forall perc c, (0 <= perc <= 100)%R -> (0 <= c <= 1)%R -> (c <= mix perc c <= 1)%R.
Proof.
  intros perc c P C. unfold mix.
  assert (A : (0 <= perc * (1 - c))%R) by (apply Rmult_le_pos; lra).
  assert (B : (0 <= (100 - perc) * (1 - c))%R) by (apply Rmult_le_pos; lra).
  split; [|]; (apply (Rmult_le_reg_r 100); [lra|]); unfold Rdiv; rewrite ?(Rmult_assoc _ (/ 100) 100), ?Rinv_l; lra.
Qed.
