(** * Contextual spelling rules: conditions on the surroundings of a letter, and
    rules that choose what a letter sounds like (uses nothing of the model).

    The text is a list of characters; the letter being read is at position [i],
    counted from 0. *)
From Verif Require Import Base.
Local Open Scope Z_scope.

(** In [text] the word [w] stands at position [p]. *)
Definition stands_at (text w : ustr) (p : Z) : Prop :=
  exists a b, text = a ++ w ++ b /\ Z.of_nat (length a) = p.

Inductive cond :=
| At (d : Z) (ws : list ustr)   (** one of these stands [d] places after the letter ([d] may be negative or 0) *)
| Precede (n : nat)             (** at least [n] characters precede the letter *)
| Follow (n : nat)              (** exactly [n] characters follow the letter *)
| Long (n : nat)                (** the text has at least [n] characters *)
| Begins (ws : list ustr)       (** the text begins with one of these *)
| Finishes (ws : list ustr)     (** the text ends with one of these *)
| Somewhere (ws : list ustr)    (** one of these occurs in the text *)
| Both (c d : cond)
| Either (c d : cond)
| Not (c : cond).

Fixpoint holds (text : ustr) (i : nat) (c : cond) : Prop :=
  match c with
  | At d ws => exists w, In w ws /\ stands_at text w (Z.of_nat i + d)
  | Precede n => (n <= i)%nat
  | Follow n => length text = (i + 1 + n)%nat
  | Long n => (n <= length text)%nat
  | Begins ws => exists w r, In w ws /\ text = w ++ r
  | Finishes ws => exists w r, In w ws /\ text = r ++ w
  | Somewhere ws => exists w p, In w ws /\ stands_at text w p
  | Both c d => holds text i c /\ holds text i d
  | Either c d => holds text i c \/ holds text i d
  | Not c => ~ holds text i c
  end.

(** Frequent conditions. *)
Definition letters (s : ustr) : list ustr := map (fun c => [c]) s.
Definition First : cond := Not (Precede 1).
Definition Last : cond := Follow 0.
Definition After (s : ustr) : cond := At (-1) (letters s).   (** the letter before is one of [s] *)
Definition Before (s : ustr) : cond := At 1 (letters s).     (** the next letter is one of [s] *)
Definition Next (ws : list ustr) : cond := At 1 ws.          (** one of these follows *)
Definition Here (ws : list ustr) : cond := At 0 ws.          (** one of these starts with the letter *)

(** A rule: a result, or a choice between two rules. *)
Inductive rule (A : Type) :=
| Out (a : A)
| If (c : cond) (r1 r2 : rule A).
Arguments Out {A}. Arguments If {A}.

Inductive gives {A} (text : ustr) (i : nat) : rule A -> A -> Prop :=
| g_out : forall a, gives text i (Out a) a
| g_yes : forall c r1 r2 a, holds text i c -> gives text i r1 a -> gives text i (If c r1 r2) a
| g_no : forall c r1 r2 a, ~ holds text i c -> gives text i r2 a -> gives text i (If c r1 r2) a.

(** A table of rules per letter: the entries name the letters they are about; letters
    without an entry have the default rule. *)
Definition table (A : Type) := list (ustr * (N -> rule A)).
Inductive rule_of {A} (t : table A) (default : rule A) (c : N) : rule A -> Prop :=
| ro_listed : forall ls f, In (ls, f) t -> In c ls -> rule_of t default c (f c)
| ro_unlisted : (forall ls f, In (ls, f) t -> ~ In c ls) -> rule_of t default c default.

(** A text measured in bytes: a character of several bytes takes that many places, and none
    of them holds a character that any rule mentions. *)
Definition places (c : N) : ustr := if (c <? 128)%N then [c] else repeat 0%N (utf8_len c).
Definition in_places (text : ustr) : ustr := flat_map places text.
