(* Distances to the border and reachable waypoints. *)
From Coq Require Import QArith Qabs Qminmax Qround ZArith List Bool Lia Lqa.
From Verif Require Import Frame_Model Frame_Spec Frame_Proofs.
Import ListNotations.
Open Scope bool_scope.
Open Scope Q_scope.

Lemma dist_vertical p a y0 y1 : ~ y0 == y1 -> dist_line p (a, y0) (a, y1) == Qabs (fst p - a).
Proof.
  intro N. unfold dist_line. cbn [fst snd].
  assert (E : (y1 - y0) * fst p - (a - a) * snd p + a * y0 - y1 * a == (y1 - y0) * (fst p - a)) by ring.
  rewrite E, Qabs_Qmult.
  assert (Z : Qabs (a - a) == 0) by (rewrite Qabs_pos; lra). rewrite Z.
  field. intro C. apply N.
  destruct (Qlt_le_dec (y1 - y0) 0) as [L|L].
  - rewrite Qabs_neg in C; lra.
  - rewrite Qabs_pos in C; lra.
Qed.
Lemma dist_horizontal p b x0 x1 : ~ x0 == x1 -> dist_line p (x0, b) (x1, b) == Qabs (snd p - b).
Proof.
  intro N. unfold dist_line. cbn [fst snd].
  assert (E : (b - b) * fst p - (x1 - x0) * snd p + x1 * b - b * x0 == (x1 - x0) * (b - snd p)) by ring.
  rewrite E, Qabs_Qmult. rewrite (Qabs_Qminus b (snd p)).
  assert (Z : Qabs (b - b) == 0) by (rewrite Qabs_pos; lra). rewrite Z.
  field. intro C. apply N.
  destruct (Qlt_le_dec (x1 - x0) 0) as [L|L].
  - rewrite Qabs_neg in C; lra.
  - rewrite Qabs_pos in C; lra.
Qed.

Lemma abs_cases x : (0 <= x /\ Qabs x == x) \/ (x < 0 /\ Qabs x == - x).
Proof.
  destruct (Qlt_le_dec x 0) as [L|L].
  - right. split; [exact L|]. apply Qabs_neg. lra.
  - left. split; [exact L|]. apply Qabs_pos, L.
Qed.

(* the nearer of the two vertical sides, with a sign *)
Lemma border_x l p : fat l ->
  let dx := fst (distance_to_border l p) in
  (fst p - xlo l < xhi l - fst p /\ dx == - Qabs (fst p - xlo l))
  \/ (xhi l - fst p <= fst p - xlo l /\ dx == Qabs (fst p - xhi l)).
Proof.
  intros (FX & FY). cbv zeta. unfold distance_to_border. cbn [fst].
  pose proof (dist_vertical p (xlo l) (ylo l) (yhi l)) as A.
  pose proof (dist_vertical p (xhi l) (yhi l) (ylo l)) as B.
  assert (A' := A ltac:(lra)). assert (B' := B ltac:(lra)). clear A B.
  set (d12 := dist_line p (xlo l, ylo l) (xlo l, yhi l)) in *.
  set (d34 := dist_line p (xhi l, yhi l) (xhi l, ylo l)) in *.
  assert (P12 : Qabs (- d12) == Qabs (fst p - xlo l)).
  { rewrite Qabs_opp, A'. apply Qabs_pos, Qabs_nonneg. }
  assert (P34 : Qabs d34 == Qabs (fst p - xhi l)).
  { rewrite B'. apply Qabs_pos, Qabs_nonneg. }
  destruct (ltb (Qabs (- d12)) (Qabs d34)) eqn:E; qb_in E; rewrite P12, P34 in E.
  - left. split; [|rewrite A'; reflexivity].
    destruct (abs_cases (fst p - xlo l)), (abs_cases (fst p - xhi l)); lra.
  - right. split; [|rewrite B'; reflexivity].
    destruct (abs_cases (fst p - xlo l)), (abs_cases (fst p - xhi l)); lra.
Qed.
Lemma border_y l p : fat l ->
  let dy := snd (distance_to_border l p) in
  (yhi l - snd p < snd p - ylo l /\ dy == Qabs (snd p - yhi l))
  \/ (snd p - ylo l <= yhi l - snd p /\ dy == - Qabs (snd p - ylo l)).
Proof.
  intros (FX & FY). cbv zeta. unfold distance_to_border. cbn [snd].
  pose proof (dist_horizontal p (yhi l) (xlo l) (xhi l)) as A.
  pose proof (dist_horizontal p (ylo l) (xhi l) (xlo l)) as B.
  assert (A' := A ltac:(lra)). assert (B' := B ltac:(lra)). clear A B.
  set (d23 := dist_line p (xlo l, yhi l) (xhi l, yhi l)) in *.
  set (d41 := dist_line p (xhi l, ylo l) (xlo l, ylo l)) in *.
  assert (P41 : Qabs (- d41) == Qabs (snd p - ylo l)).
  { rewrite Qabs_opp, B'. apply Qabs_pos, Qabs_nonneg. }
  assert (P23 : Qabs d23 == Qabs (snd p - yhi l)).
  { rewrite A'. apply Qabs_pos, Qabs_nonneg. }
  destruct (ltb (Qabs d23) (Qabs (- d41))) eqn:E; qb_in E; rewrite P41, P23 in E.
  - left. split; [|rewrite A'; reflexivity].
    destruct (abs_cases (snd p - ylo l)), (abs_cases (snd p - yhi l)); lra.
  - right. split; [|rewrite B'; reflexivity].
    destruct (abs_cases (snd p - ylo l)), (abs_cases (snd p - yhi l)); lra.
Qed.

(* the size is the distance to the nearer side *)
Lemma border_x_abs l p : fat l ->
  Qabs (fst (distance_to_border l p)) == Qmin (Qabs (fst p - xlo l)) (Qabs (fst p - xhi l)).
Proof.
  intro F. destruct (border_x l p F) as [(A & B)|(A & B)]; rewrite B.
  - rewrite Qabs_opp, (Qabs_pos (Qabs _)) by apply Qabs_nonneg.
    symmetry. apply Q.min_l. destruct F.
    destruct (abs_cases (fst p - xlo l)), (abs_cases (fst p - xhi l)); lra.
  - rewrite (Qabs_pos (Qabs _)) by apply Qabs_nonneg.
    symmetry. apply Q.min_r. destruct F.
    destruct (abs_cases (fst p - xlo l)), (abs_cases (fst p - xhi l)); lra.
Qed.
Lemma border_y_abs l p : fat l ->
  Qabs (snd (distance_to_border l p)) == Qmin (Qabs (snd p - ylo l)) (Qabs (snd p - yhi l)).
Proof.
  intro F. destruct (border_y l p F) as [(A & B)|(A & B)]; rewrite B.
  - rewrite (Qabs_pos (Qabs _)) by apply Qabs_nonneg.
    symmetry. apply Q.min_r. destruct F.
    destruct (abs_cases (snd p - ylo l)), (abs_cases (snd p - yhi l)); lra.
  - rewrite Qabs_opp, (Qabs_pos (Qabs _)) by apply Qabs_nonneg.
    symmetry. apply Q.min_l. destruct F.
    destruct (abs_cases (snd p - ylo l)), (abs_cases (snd p - yhi l)); lra.
Qed.

Ltac absx := repeat match goal with
  | |- context [Qabs ?e] => destruct (abs_cases e) as [[? ?]|[? ?]]; generalize dependent (Qabs e); intros
  | H : context [Qabs ?e] |- _ => destruct (abs_cases e) as [[? ?]|[? ?]]; generalize dependent (Qabs e); intros
  end.

Lemma in_rect_iff p l : point_in_rectangle p l = true <-> contains l p.
Proof. unfold point_in_rectangle, contains, clearance. qb. lra. Qed.

Lemma far_x_iff l veh p : fat l -> 0 <= veh ->
  negb (fst (inside_xy p l)) || ltb (Qabs (fst (distance_to_border l p))) veh = true
  <-> fst p < xlo l + veh \/ xhi l - veh < fst p.
Proof.
  intros F V. unfold inside_xy. cbn [fst]. qb. rewrite (border_x_abs l p F). destruct F as (FX & FY).
  destruct (Q.min_spec (Qabs (fst p - xlo l)) (Qabs (fst p - xhi l))) as [(A & B)|(A & B)]; rewrite B;
  destruct (abs_cases (fst p - xlo l)), (abs_cases (fst p - xhi l)); lra.
Qed.
Lemma far_y_iff l veh p : fat l -> 0 <= veh ->
  negb (snd (inside_xy p l)) || ltb (Qabs (snd (distance_to_border l p))) veh = true
  <-> snd p < ylo l + veh \/ yhi l - veh < snd p.
Proof.
  intros F V. unfold inside_xy. cbn [snd]. qb. rewrite (border_y_abs l p F). destruct F as (FX & FY).
  destruct (Q.min_spec (Qabs (snd p - ylo l)) (Qabs (snd p - yhi l))) as [(A & B)|(A & B)]; rewrite B;
  destruct (abs_cases (snd p - ylo l)), (abs_cases (snd p - yhi l)); lra.
Qed.
Lemma sign_x l p : fat l -> ~ fst p == xhi l ->
  leb (fst (distance_to_border l p)) 0 = true <-> fst p - xlo l < xhi l - fst p.
Proof.
  intros F N. rewrite leb_iff. destruct (border_x l p F) as [(A & B)|(A & B)]; rewrite B; destruct F.
  - destruct (abs_cases (fst p - xlo l)); lra.
  - destruct (abs_cases (fst p - xhi l)); lra.
Qed.
Lemma sign_y l p : fat l -> ~ snd p == yhi l ->
  leb (snd (distance_to_border l p)) 0 = true <-> snd p - ylo l <= yhi l - snd p.
Proof.
  intros F N. rewrite leb_iff. destruct (border_y l p F) as [(A & B)|(A & B)]; rewrite B; destruct F.
  - destruct (abs_cases (snd p - yhi l)); lra.
  - destruct (abs_cases (snd p - ylo l)); lra.
Qed.

Lemma too_close_false l b p : fat l -> 0 <= b ->
  too_close l b p = false <-> (xlo l + b < fst p < xhi l - b /\ ylo l + b < snd p < yhi l - b).
Proof.
  intros F V. unfold too_close. qb. rewrite in_rect_iff, (border_x_abs l p F), (border_y_abs l p F).
  unfold contains, clearance. destruct F as (FX & FY).
  destruct (Q.min_spec (Qabs (fst p - xlo l)) (Qabs (fst p - xhi l))) as [(A & B)|(A & B)]; rewrite B;
  destruct (Q.min_spec (Qabs (snd p - ylo l)) (Qabs (snd p - yhi l))) as [(C & D)|(C & D)]; rewrite D;
  destruct (abs_cases (fst p - xlo l)), (abs_cases (fst p - xhi l));
  destruct (abs_cases (snd p - ylo l)), (abs_cases (snd p - yhi l)); lra.
Qed.

(* ---- moving the frame ---------------------------------------------------- *)

Lemma reach_move_frame_ok veh m l p :
  fat l -> 0 < veh -> 1 <= m -> 2 * veh <= xhi l - xlo l -> 2 * veh <= yhi l - ylo l ->
  contains l p -> ~ fst p == xhi l -> ~ snd p == yhi l ->
  within l (reach_move_frame veh m l p) /\ clearance (reach_move_frame veh m l p) veh p.
Proof.
  intros F V M WX WY C NX NY. unfold reach_move_frame.
  pose proof (border_x l p F) as BX. pose proof (border_y l p F) as BY.
  pose proof (sign_x l p F NX) as SX. pose proof (sign_y l p F NY) as SY.
  rewrite (proj2 (in_rect_iff p l) C).
  destruct (distance_to_border l p) as [dx dy]. cbn [fst snd] in *.
  destruct C as ((C1 & C2) & C3 & C4). destruct F as (FX & FY).
  assert (VM : veh <= veh * m) by nra. set (vm := veh * m) in *. clearbody vm.
  set (l1 := if leb (Qabs dx) veh then _ else l).
  assert (L1 : xlo l1 <= xlo l /\ xhi l <= xhi l1 /\ ylo l1 = ylo l /\ yhi l1 = yhi l /\
               xlo l1 + veh <= fst p <= xhi l1 - veh).
  { unfold l1. unfold move_distance. destruct (leb (Qabs dx) veh) eqn:E; qb_in E.
    - destruct (leb dx 0) eqn:S.
      + pose proof (proj1 SX eq_refl) as S0. destruct BX as [(_ & B)|(A & _)]; [|lra].
        cbn [xlo ylo xhi yhi].
        assert (D : Qabs dx == fst p - xlo l).
        { rewrite B, Qabs_opp, Qabs_pos by apply Qabs_nonneg. apply Qabs_pos. lra. }
        rewrite D in *. repeat split; lra.
      + assert (S' : ~ fst p - xlo l < xhi l - fst p) by (intro C; apply SX in C; congruence).
        destruct BX as [(A & _)|(_ & B)]; [lra|].
        cbn [xlo ylo xhi yhi].
        assert (D : Qabs dx == xhi l - fst p).
        { rewrite B, Qabs_pos by apply Qabs_nonneg. rewrite Qabs_neg; lra. }
        rewrite D in *. repeat split; lra.
    - repeat split; try lra.
      + destruct BX as [(A & B)|(A & B)].
        * rewrite B, Qabs_opp, Qabs_pos in E by apply Qabs_nonneg. rewrite Qabs_pos in E; lra.
        * rewrite B, Qabs_pos in E by apply Qabs_nonneg. rewrite Qabs_neg in E; lra.
      + destruct BX as [(A & B)|(A & B)].
        * rewrite B, Qabs_opp, Qabs_pos in E by apply Qabs_nonneg. rewrite Qabs_pos in E; lra.
        * rewrite B, Qabs_pos in E by apply Qabs_nonneg. rewrite Qabs_neg in E; lra. }
  clearbody l1. destruct L1 as (L1 & L2 & L3 & L4 & L5).
  unfold move_distance. destruct (leb (Qabs dy) veh) eqn:E; qb_in E.
  - destruct (leb dy 0) eqn:S.
    + pose proof (proj1 SY eq_refl) as S0. destruct BY as [(A & _)|(_ & B)]; [lra|].
      assert (D : Qabs dy == snd p - ylo l).
      { rewrite B, Qabs_opp, Qabs_pos by apply Qabs_nonneg. apply Qabs_pos. lra. }
      unfold within, clearance. cbn [xlo ylo xhi yhi]. rewrite L3, L4, D in *. repeat split; lra.
    + assert (S' : ~ snd p - ylo l <= yhi l - snd p) by (intro C; apply SY in C; congruence).
      destruct BY as [(_ & B)|(A & _)]; [|lra].
      assert (D : Qabs dy == yhi l - snd p).
      { rewrite B, Qabs_pos by apply Qabs_nonneg. rewrite Qabs_neg; lra. }
      unfold within, clearance. cbn [xlo ylo xhi yhi]. rewrite L3, L4, D in *. repeat split; lra.
  - unfold within, clearance. rewrite L3, L4.
    destruct BY as [(A & B)|(A & B)].
    + rewrite B, Qabs_pos in E by apply Qabs_nonneg. rewrite Qabs_neg in E; [|lra]. repeat split; lra.
    + rewrite B, Qabs_opp, Qabs_pos in E by apply Qabs_nonneg. rewrite Qabs_pos in E; [|lra]. repeat split; lra.
Qed.

(* a side that moves ends exactly at the margin from the waypoint *)
Lemma reach_move_frame_exact veh m l p :
  fat l -> contains l p -> ~ fst p == xhi l -> ~ snd p == yhi l ->
  let l' := reach_move_frame veh m l p in
  (xlo l' == xlo l \/ xlo l' == fst p - veh * m) /\ (xhi l' == xhi l \/ xhi l' == fst p + veh * m) /\
  (ylo l' == ylo l \/ ylo l' == snd p - veh * m) /\ (yhi l' == yhi l \/ yhi l' == snd p + veh * m).
Proof.
  intros F C NX NY. cbn zeta. unfold reach_move_frame.
  pose proof (border_x l p F) as BX. pose proof (border_y l p F) as BY.
  pose proof (sign_x l p F NX) as SX. pose proof (sign_y l p F NY) as SY.
  rewrite (proj2 (in_rect_iff p l) C).
  destruct (distance_to_border l p) as [dx dy]. cbn [fst snd] in *.
  destruct C as ((C1 & C2) & C3 & C4). destruct F as (FX & FY).
  set (vm := veh * m) in *. clearbody vm. unfold move_distance.
  set (l1 := if leb (Qabs dx) veh then _ else l).
  assert (L1 : (xlo l1 == xlo l \/ xlo l1 == fst p - vm) /\ (xhi l1 == xhi l \/ xhi l1 == fst p + vm) /\ ylo l1 = ylo l /\ yhi l1 = yhi l).
  { unfold l1. destruct (leb (Qabs dx) veh) eqn:E; [|repeat split; left; reflexivity].
    destruct (leb dx 0) eqn:S; cbn [xlo ylo xhi yhi]; (split; [|split; [|split; reflexivity]]); try (left; reflexivity); right.
    - pose proof (proj1 SX eq_refl) as S0. destruct BX as [(_ & B)|(A & _)]; [|lra].
      rewrite B, Qabs_opp, (Qabs_pos (Qabs _)) by apply Qabs_nonneg. rewrite Qabs_pos; lra.
    - assert (S' : ~ fst p - xlo l < xhi l - fst p) by (intro C; apply SX in C; congruence).
      destruct BX as [(A & _)|(_ & B)]; [lra|].
      rewrite B, (Qabs_pos (Qabs _)) by apply Qabs_nonneg. rewrite Qabs_neg; lra. }
  clearbody l1. destruct L1 as (L1 & L2 & L3 & L4).
  destruct (leb (Qabs dy) veh) eqn:E; [|rewrite L3, L4; repeat split; auto; left; reflexivity].
  destruct (leb dy 0) eqn:S; cbn [xlo ylo xhi yhi]; rewrite L3, L4; (split; [exact L1|split; [exact L2|split]]); try (left; reflexivity); right.
  - pose proof (proj1 SY eq_refl) as S0. destruct BY as [(A & _)|(_ & B)]; [lra|].
    rewrite B, Qabs_opp, (Qabs_pos (Qabs _)) by apply Qabs_nonneg. rewrite Qabs_pos; lra.
  - assert (S' : ~ snd p - ylo l <= yhi l - snd p) by (intro C; apply SY in C; congruence).
    destruct BY as [(_ & B)|(A & _)]; [|lra].
    rewrite B, (Qabs_pos (Qabs _)) by apply Qabs_nonneg. rewrite Qabs_neg; lra.
Qed.

(* ---- moving the point ---------------------------------------------------- *)

Lemma ratio a b n : (b < n <= a \/ a <= n < b) ->
  0 <= (n - a) / (b - a) <= 1 /\ a + (n - a) / (b - a) * (b - a) == n.
Proof.
  intro H. assert (E : (n - a) / (b - a) * (b - a) == n - a) by (field; lra).
  set (t := (n - a) / (b - a)) in *. clearbody t. split; [|lra].
  split; apply Qnot_lt_le; intro L; destruct H as [H|H]; nra.
Qed.

(* the point of the line through p1 and p2 at parameter t *)
Definition lin (p1 p2 : pt) (t : Q) : pt :=
  (fst p1 + t * (fst p2 - fst p1), snd p1 + t * (snd p2 - snd p1)).

Lemma fix_x_ok veh m l p1 p2 : fat l -> 0 <= veh -> 1 <= m -> clearance l (veh * m) p1 ->
  ~ fst p2 == xhi l -> (fst p2 < xlo l + veh \/ xhi l - veh < fst p2) ->
  exists t, 0 <= t <= 1 /\ pt_eq (fix_x veh m l p1 p2 (fst (distance_to_border l p2))) (lin p1 p2 t) /\
    (fst (lin p1 p2 t) == xlo l + veh * m \/ fst (lin p1 p2 t) == xhi l - veh * m) /\
    ~ fst p1 == fst p2.
Proof.
  intros F V M C N H. pose proof (sign_x l p2 F N) as S. destruct C as ((C1 & C2) & C3 & C4).
  assert (VM : veh <= veh * m) by nra. unfold fix_x. set (vm := veh * m) in *. clearbody vm.
  destruct F as (FX & FY).
  assert (Y : forall nx t, nx == fst p1 + t * (fst p2 - fst p1) -> t == (nx - fst p1) / (fst p2 - fst p1) ->
    (if eqb (snd p1) (snd p2) then snd p1
       else (nx - fst p1) * ((snd p2 - snd p1) / (fst p2 - fst p1)) + snd p1)
    == snd p1 + t * (snd p2 - snd p1)).
  { intros nx t A B. destruct (eqb (snd p1) (snd p2)) eqn:E; qb_in E.
    - rewrite E. ring.
    - rewrite B. destruct (Qeq_dec (fst p2 - fst p1) 0) as [Z|Z].
      + rewrite Z in *. unfold Qdiv. change (/ 0) with 0. assert (nx - fst p1 == 0) by lra. rewrite H0. ring.
      + field. exact Z. }
  destruct (leb (fst (distance_to_border l p2)) 0) eqn:E.
  - pose proof (proj1 S eq_refl) as E0.
    destruct (ratio (fst p1) (fst p2) (xlo l + vm)) as (R1 & R2); [lra|].
    set (t := (xlo l + vm - fst p1) / (fst p2 - fst p1)) in *. exists t.
    split; [exact R1|]. split; [|split; [left; exact R2|lra]].
    unfold lin, pt_eq. cbn [fst snd]. split; [symmetry; exact R2|].
    apply Y; [symmetry; exact R2|reflexivity].
  - assert (E' : ~ fst p2 - xlo l < xhi l - fst p2) by (intro A; apply S in A; congruence).
    destruct (ratio (fst p1) (fst p2) (xhi l - vm)) as (R1 & R2); [lra|].
    set (t := (xhi l - vm - fst p1) / (fst p2 - fst p1)) in *. exists t.
    split; [exact R1|]. split; [|split; [right; exact R2|lra]].
    unfold lin, pt_eq. cbn [fst snd]. split; [symmetry; exact R2|].
    apply Y; [symmetry; exact R2|reflexivity].
Qed.

Lemma fix_y_ok veh m l p1 p2 dy n : fat l -> 0 <= veh ->
  n = (if leb dy 0 then ylo l + veh * m else yhi l - veh * m) ->
  (snd p2 < n <= snd p1 \/ snd p1 <= n < snd p2) ->
  exists s, 0 <= s <= 1 /\ pt_eq (fix_y veh m l p1 p2 dy) (lin p1 p2 s) /\ snd (lin p1 p2 s) == n.
Proof.
  intros F V -> H. unfold fix_y. set (n := if leb dy 0 then _ else _) in *. clearbody n.
  destruct (ratio (snd p1) (snd p2) n H) as (R1 & R2).
  set (s := (n - snd p1) / (snd p2 - snd p1)) in *. exists s.
  split; [exact R1|]. split; [|exact R2]. unfold lin, pt_eq. cbn [fst snd]. split; [|symmetry; exact R2].
  destruct (eqb (fst p1) (fst p2)) eqn:E; qb_in E.
  - rewrite E. ring.
  - unfold s. field. lra.
Qed.

Lemma new_waypoint_ok veh m l p1 p2 : fat l -> 0 < veh -> 1 <= m ->
  clearance l (veh * m) p1 -> ~ fst p2 == xhi l -> ~ snd p2 == yhi l ->
  (forall q, on_segment p1 p2 q -> fst q == xlo l + veh * m \/ fst q == xhi l - veh * m -> ~ snd q == yhi l) ->
  on_segment p1 p2 (new_waypoint veh m l p1 p2) /\ clearance l veh (new_waypoint veh m l p1 p2).
Proof.
  intros F V M C NX NY NC.
  assert (VM : veh <= veh * m) by nra.
  pose proof C as ((C1 & C2) & C3 & C4). unfold new_waypoint.
  set (fx := negb (fst (inside_xy p2 l)) || ltb (Qabs (fst (distance_to_border l p2))) veh).
  set (w := if fx then fix_x veh m l p1 p2 (fst (distance_to_border l p2)) else p2).
  assert (W : exists t, 0 <= t <= 1 /\ pt_eq w (lin p1 p2 t) /\ xlo l + veh <= fst w <= xhi l - veh /\ ~ snd w == yhi l).
  { unfold w. destruct fx eqn:E; unfold fx in E.
    - apply far_x_iff in E; [|exact F|lra].
      destruct (fix_x_ok veh m l p1 p2 F ltac:(lra) M C NX E) as (t & T & (Q1 & Q2) & X & _).
      set (q := fix_x _ _ _ _ _ _) in *. exists t. split; [exact T|]. split; [split; assumption|].
      split.
      + rewrite Q1. lra.
      + apply (NC q); [exists t; split; [exact T|split; [exact Q1|exact Q2]]|]. rewrite Q1. exact X.
    - exists 1. split; [lra|]. split; [unfold lin, pt_eq; cbn; split; ring|]. split; [|exact NY].
      assert (~ (fst p2 < xlo l + veh \/ xhi l - veh < fst p2)) by
        (rewrite <- (far_x_iff l veh p2 F ltac:(lra)); congruence). lra. }
  destruct W as (t & T & (W1 & W2) & WX & WN). clearbody w.
  destruct (negb (snd (inside_xy w l)) || ltb (Qabs (snd (distance_to_border l w))) veh) eqn:E.
  - apply far_y_iff in E; [|exact F|lra].
    pose proof (sign_y l w F WN) as SG.
    set (dy := snd (distance_to_border l w)) in *.
    unfold lin in W1, W2. cbn [fst snd] in W1, W2.
    assert (B : let n := if leb dy 0 then ylo l + veh * m else yhi l - veh * m in
      (snd w < n <= snd p1 \/ snd p1 <= n < snd w)).
    { cbv zeta. destruct F as (FX & FY). destruct (leb dy 0) eqn:L.
      - pose proof (proj1 SG eq_refl). lra.
      - assert (~ (snd w - ylo l <= yhi l - snd w)) by (intro A; apply SG in A; congruence). lra. }
    cbv zeta in B. set (n := if leb dy 0 then _ else _) in B.
    assert (B' : snd p2 < n <= snd p1 \/ snd p1 <= n < snd p2).
    { destruct B as [B|B]; rewrite W2 in B.
      - left. split; [|lra]. apply Qnot_le_lt. intro A. nra.
      - right. split; [lra|]. apply Qnot_le_lt. intro A. nra. }
    destruct (fix_y_ok veh m l p1 p2 dy n F ltac:(lra) eq_refl B') as (s & S & (Y1 & Y2) & Y3).
    set (q := fix_y veh m l p1 p2 dy) in *. clearbody q.
    split; [exists s; split; [exact S|split; [exact Y1|exact Y2]]|].
    unfold lin in *. cbn [fst snd] in *.
    assert (ST : s <= t).
    { apply Qnot_lt_le. intro A. destruct B as [B|B]; rewrite W2 in B; nra. }
    assert (SN : ylo l + veh * m <= n <= yhi l - veh * m).
    { unfold n. destruct (leb dy 0); lra. }
    unfold clearance. rewrite Y1, Y2, Y3. rewrite W1 in WX. split; [|lra].
    split; apply Qnot_lt_le; intro A.
    + destruct (Qlt_le_dec (fst p2) (fst p1)); nra.
    + destruct (Qlt_le_dec (fst p2) (fst p1)); nra.
  - split; [exists t; split; [exact T|split; [exact W1|exact W2]]|].
    assert (~ (snd w < ylo l + veh \/ yhi l - veh < snd w)) by
      (rewrite <- (far_y_iff l veh w F ltac:(lra)); congruence).
    unfold clearance. lra.
Qed.

(* which waypoints are kept *)
Lemma find_reachable_ok l veh ws k count p1 : find_reachable l veh ws k = Ok (count, p1) ->
  exists skipped rest, ws = skipped ++ p1 :: rest /\ (count = k + length skipped)%nat /\
    too_close l veh p1 = false /\ (forall q, In q skipped -> too_close l veh q = true).
Proof.
  revert k. induction ws as [|w ws IH]; cbn; intros k H; [discriminate|].
  destruct (too_close l veh w) eqn:E.
  - destruct (IH _ H) as (sk & r & -> & -> & T & A). exists (w :: sk), r. split; [reflexivity|].
    split; [cbn; lia|]. split; [exact T|]. intros q [<-|I]; auto.
  - injection H as <- <-. exists [], ws. split; [reflexivity|]. split; [cbn; lia|]. split; [exact E|].
    intros q [].
Qed.
Lemma find_reachable_err l veh ws k e : find_reachable l veh ws k = Err e ->
  e = IndexError /\ forall q, In q ws -> too_close l veh q = true.
Proof.
  revert k. induction ws as [|w ws IH]; cbn; intros k H.
  - split; [congruence|]. intros q [].
  - destruct (too_close l veh w) eqn:E; [|discriminate].
    destruct (IH _ H) as (A & B). split; [exact A|]. intros q [<-|I]; auto.
Qed.

Lemma reach_move_point_shape veh m l before p2 ws : reach_move_point veh m l before p2 = Ok ws ->
  (too_close l (veh * m) p2 = false /\ ws = before ++ [p2]) \/
  (exists keep p1 dropped, before = keep ++ p1 :: dropped /\ too_close l veh p1 = false /\
     (forall q, In q dropped -> too_close l veh q = true) /\
     ws = keep ++ [p1; new_waypoint veh m l p1 p2]).
Proof.
  unfold reach_move_point. destruct (too_close l (veh * m) p2); intro H.
  - right. apply bind_ok in H. destruct H as ([count p1] & E & H). injection H as <-.
    destruct (find_reachable_ok _ _ _ _ _ _ E) as (sk & r & A & B & T & D).
    assert (A' : before = rev r ++ p1 :: rev sk).
    { rewrite <- (rev_involutive before), A, rev_app_distr. cbn. rewrite <- app_assoc. reflexivity. }
    exists (rev r), p1, (rev sk). split; [exact A'|]. split; [exact T|].
    split; [intros q I; apply D, in_rev, I|].
    rewrite A', B. rewrite app_length. cbn [length]. rewrite rev_length, rev_length.
    replace (length r + S (length sk) + 1 - (1 + length sk))%nat with (length (rev r ++ [p1]))%nat
      by (rewrite app_length, rev_length; cbn; lia).
    rewrite <- app_assoc. cbn [app].
    replace (rev r ++ p1 :: rev sk ++ [p2]) with ((rev r ++ [p1]) ++ rev sk ++ [p2])
      by (rewrite <- !app_assoc; reflexivity).
    rewrite firstn_app, firstn_all, Nat.sub_diag. cbn. rewrite app_nil_r, <- app_assoc. reflexivity.
  - left. split; [reflexivity|congruence].
Qed.
Lemma reach_move_point_err veh m l before p2 e : reach_move_point veh m l before p2 = Err e ->
  e = IndexError /\ too_close l (veh * m) p2 = true /\ forall q, In q before -> too_close l veh q = true.
Proof.
  unfold reach_move_point. destruct (too_close l (veh * m) p2); intro H; [|discriminate].
  destruct (find_reachable l veh (rev before) 1) as [[count p1]|e'] eqn:E; cbn in H; [discriminate|].
  destruct (find_reachable_err _ _ _ _ _ E) as (A & B). split; [congruence|]. split; [reflexivity|].
  intros q I. apply B. apply in_rev. rewrite rev_involutive. exact I.
Qed.

Lemma last_waypoint_reachable veh m l before p2 ws : fat l -> 0 < veh -> 1 <= m ->
  ~ fst p2 == xhi l -> ~ snd p2 == yhi l ->
  (forall p1, In p1 before -> too_close l veh p1 = false -> clearance l (veh * m) p1 /\
    forall q, on_segment p1 p2 q -> fst q == xlo l + veh * m \/ fst q == xhi l - veh * m -> ~ snd q == yhi l) ->
  reach_move_point veh m l before p2 = Ok ws ->
  clearance l veh (last ws (0, 0)) /\ (exists p1, In p1 (p2 :: before) /\ on_segment p1 p2 (last ws (0, 0))).
Proof.
  intros F V M NX NY HP H. destruct (reach_move_point_shape _ _ _ _ _ _ H) as [(T & ->)|(keep & p1 & dr & E & T & _ & ->)].
  - rewrite last_last. assert (VM : veh <= veh * m) by nra. split.
    + apply too_close_false in T; [|exact F|lra]. unfold clearance. lra.
    + exists p2. split; [now left|]. exists 0. split; [lra|]. split; cbn [fst snd]; ring.
  - replace (keep ++ [p1; new_waypoint veh m l p1 p2]) with ((keep ++ [p1]) ++ [new_waypoint veh m l p1 p2])
      by (rewrite <- app_assoc; reflexivity). rewrite last_last.
    assert (I : In p1 before) by (rewrite E; apply in_or_app; right; now left).
    destruct (HP p1 I T) as (C & D).
    destruct (new_waypoint_ok veh m l p1 p2 F V M C NX NY D) as (A & B).
    split; [exact B|]. exists p1. split; [now right|exact A].
Qed.
