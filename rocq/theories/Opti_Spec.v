(* Vocabulary of the theorems about optilayer.py, independent of the model's
   helper functions. *)
Require Import List String Ascii ZArith.
Import ListNotations.
Open Scope string_scope.

Definition digit (c : ascii) : Prop := (48 <= nat_of_ascii c <= 57)%nat.
Definition letter (c : ascii) : Prop :=
  (65 <= nat_of_ascii c <= 90)%nat \/ (97 <= nat_of_ascii c <= 122)%nat.

(* every character satisfies P *)
Definition chars (P : ascii -> Prop) (s : string) : Prop := Forall P (list_ascii_of_string s).

Definition number_string (s : string) : Prop := s <> "" /\ chars digit s.

Definition ends_in_letter (s : string) : Prop := exists p c, s = p ++ String c "" /\ letter c.

(* A label request that consists of a stem and an optional number: the stem is
   empty or ends in a letter.  Excludes e.g. "veh_" and "veh_0". *)
Definition sound_request (r : string) : Prop :=
  exists stem num, r = stem ++ num /\ r <> "" /\ chars digit num /\
    (stem = "" \/ ends_in_letter stem).

Definition no_underscore (s : string) : Prop := chars (fun c => c <> "_"%char) s.

(* Position a..len-b-1 of a list, as a statement about positions. *)
Definition keeps_range {A} (a b : nat) (l r : list A) : Prop :=
  List.length r = (List.length l - a - b)%nat /\
  forall i, (i < List.length r)%nat -> nth_error r i = nth_error l (a + i).

(* ---------- children ---------- *)
Require Import Verif.Opti_Model.

(* The child was made by __init__ and any sequence of define_* / set_value. *)
Definition built {V} (c : child V) : Prop :=
  exists ops, c = run_ops ops (new_child (cid c) (clabel c)).

(* n is a variable or a parameter of c *)
Definition declares {V} (n : string) (c : child V) : Prop := In n (cvars c) \/ In n (cpars c).

(* exactly one child of the family declares n, and it is o *)
Definition sole_owner {V} (cs : list (child V)) (n : string) (o : child V) : Prop :=
  exists l1 l2, cs = (l1 ++ o :: l2)%list /\ declares n o /\
    (forall c, In c l1 \/ In c l2 -> ~ declares n c).

(* two places in the family that both declare n *)
Definition two_owners {V} (cs : list (child V)) (n : string) : Prop :=
  exists l1 o1 l2 o2 l3, cs = (l1 ++ o1 :: l2 ++ o2 :: l3)%list /\ declares n o1 /\ declares n o2.

(* Value of a name after a history: the last one given. *)
Fixpoint last_given {V} (n : string) (ops : list (op V)) : option V :=
  match ops with
  | [] => None
  | o :: os =>
      match last_given n os with
      | Some v => Some v
      | None => match o with
                | Define _ n' v | SetValue n' v => if String.string_dec n n' then Some v else None
                end
      end
  end.

(* d, asked at this time, gives value v for parameter n of child object id *)
Definition gives {V} (offers : child V -> offers_t V) (d : child V) (id : nat) (n : string) (v : V) : Prop :=
  exists dic, In (id, dic) (offers d) /\ In (n, v) dic.

(* the answers of set_parameters are Python dictionaries: no duplicate keys *)
Definition proper_offers {V} (o : offers_t V) : Prop :=
  NoDup (map fst o) /\ forall id dic, In (id, dic) o -> NoDup (map fst dic).

(* two different children of the family both give a value for n of id *)
Definition given_twice {V} (offers : child V -> offers_t V) (cs : list (child V)) : Prop :=
  exists l1 d1 l2 d2 l3 id n v1 v2, cs = (l1 ++ d1 :: l2 ++ d2 :: l3)%list /\
    gives offers d1 id n v1 /\ gives offers d2 id n v2.

(* ---------- constraints ---------- *)
(* the rows that a call of define_constraint should constrain; None for a number *)
Definition intended_rows {A B} (c : ccall A B) (rows : list A) : Prop :=
  match a_expr c with
  | CNum => False
  | CMX es => rows = es
  | CSpline co =>
      match a_skip c with
      | None => rows = co
      | Some (a, b) => keeps_range (Z.to_nat a) (Z.to_nat b) co rows
      end
  end.
Definition is_number {A B} (c : ccall A B) : bool :=
  match a_expr c with CNum => true | _ => false end.
(* skip pairs that the code handles: non-negative, within the list, not (0, 0) *)
Definition usable_skip {A B} (c : ccall A B) : Prop :=
  match a_expr c, a_skip c with
  | CSpline co, Some (a, b) =>
      (0 <= a)%Z /\ (0 <= b)%Z /\ (a + b <= Z.of_nat (List.length co))%Z /\ (a, b) <> (0, 0)%Z
  | _, _ => True
  end.
(* what ends up in _constraints for one call *)
Definition records_call {A B} (c : ccall A B) (nk : string * constr A B) : Prop :=
  intended_rows c (k_rows (snd nk)) /\
  k_lb (snd nk) = repeat (a_lb c) (List.length (k_rows (snd nk))) /\
  k_ub (snd nk) = repeat (a_ub c) (List.length (k_rows (snd nk))) /\
  k_shut (snd nk) = a_shut c.
Definition total_rows {A B} (d : list (string * constr A B)) : nat :=
  fold_right (fun nk n => (List.length (k_rows (snd nk)) + n)%nat) 0%nat d.
