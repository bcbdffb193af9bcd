(** * Specification of the serialised forms, independent of the reading and writing functions. *)
From Verif Require Import Base Serde.
Local Open Scope N_scope.

(** The object has exactly one member of that name, with that value. *)
Definition one_member (members : list (ustr * json)) (name : ustr) (v : json) : Prop :=
  exists a b, members = a ++ (name, v) :: b /\ ~ In name (map fst a) /\ ~ In name (map fst b).
Definition no_member (members : list (ustr * json)) (name : ustr) : Prop := ~ In name (map fst members).

(** The document gives these values (or nothing, [None]) for these fields: an object by names, in any
    order and with any other members, or an array of exactly as many values, in order. *)
Definition gives (j : json) (names : list ustr) (values : list (option json)) : Prop :=
  (exists members, j = JObj members /\
     Forall2 (fun n v => match v with Some x => one_member members n x | None => no_member members n end) names values)
  \/ (exists l, j = JArr l /\ length l = length names /\ values = map Some l).

(** A number that fits in 64 bits. *)
Definition is_size (v : json) (n : nat) : Prop := v = JNum (N.of_nat n) /\ N.of_nat n < 2 ^ 64.
(** An optional value: nothing and [null] are [None]. *)
Definition is_optional {A} (is : json -> A -> Prop) (v : option json) (o : option A) : Prop :=
  match o with
  | None => v = None \/ v = Some JNull
  | Some x => exists j, v = Some j /\ is j x
  end.
Definition is_text (v : json) (s : ustr) : Prop := v = JStr s.
(** Twenty-six texts of one character. *)
Definition is_mapping (v : json) (m : ustr) : Prop := length m = 26%nat /\ v = JArr (map (fun c => JStr [c]) m).
(** A variant without data. *)
Definition names_variant (j : json) (name : ustr) : Prop := j = JStr name \/ j = JObj [(name, JNull)].
