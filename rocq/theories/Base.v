(** * Base: the Rust values the model computes with.

    - [char] is modelled by [N] (the code point) and [str]/[String] by
      [ustr := list N], the list of its [char]s.  Theorems quantify over all
      lists of [N], a superset of the valid Unicode scalar sequences.
    - Byte offsets are kept wherever the Rust code uses them: [utf8_len] is the
      number of bytes of one [char], [blen] is [str::len], and byte slicing goes
      through [split_byte], which fails exactly when Rust panics (offset out of
      range or not on a character boundary).
    - A Rust panic is the explicit value [Panic]; [NoFuel] marks a fuelled loop
      that ran out (the theorems exclude it). *)
From Coq Require Import String Ascii.
From Coq Require Export List Arith NArith ZArith Bool Lia.
Export ListNotations.
Export String.StringSyntax.
Global Delimit Scope string_scope with string.
Global Open Scope list_scope.
Global Open Scope bool_scope.

Definition char := N.
Definition ustr := list N.

(* ------------------------------------------------------------------ *)
(** ** Literals.  [$ "..."] is the list of code points of a literal (the bytes
    of the Coq literal are decoded as UTF-8); [# "c"] is its first code point.
    Both are evaluated when parsed, so that definitions contain plain numbers. *)

Fixpoint bytes_of (s : string) : list N :=
  match s with
  | EmptyString => []
  | String a r => N_of_ascii a :: bytes_of r
  end.

Local Open Scope N_scope.

Fixpoint utf8_decode_aux (bs : list N) (pending : nat) (acc : N) : ustr :=
  match bs with
  | [] => []
  | b :: r =>
      match pending with
      | O => if b <? 128 then b :: utf8_decode_aux r 0 0
             else if b <? 224 then utf8_decode_aux r 1 (b - 192)
             else if b <? 240 then utf8_decode_aux r 2 (b - 224)
             else utf8_decode_aux r 3 (b - 240)
      | S O => (acc * 64 + (b - 128)) :: utf8_decode_aux r 0 0
      | S p => utf8_decode_aux r p (acc * 64 + (b - 128))
      end
  end.

Definition str (s : string) : ustr := utf8_decode_aux (bytes_of s) 0 0.
Definition chr (s : string) : N := hd 0 (str s).

Notation "$ s" := (ltac:(let v := eval vm_compute in (str s%string) in exact v))
  (at level 1, s constr at level 0, only parsing).
Notation "# s" := (ltac:(let v := eval vm_compute in (chr s%string) in exact v))
  (at level 1, s constr at level 0, only parsing).

(* ------------------------------------------------------------------ *)
(** ** Results *)

Inductive res (A : Type) : Type :=
| Ok (a : A)
| Panic
| NoFuel.
Arguments Ok {A} a.
Arguments Panic {A}.
Arguments NoFuel {A}.

Definition bind {A B} (x : res A) (f : A -> res B) : res B :=
  match x with Ok a => f a | Panic => Panic | NoFuel => NoFuel end.

Notation "x <- e1 ;; e2" := (bind e1 (fun x => e2))
  (at level 61, e1 at next level, right associativity).
Notation "' p <- e1 ;; e2" := (bind e1 (fun p => e2))
  (at level 61, p pattern, e1 at next level, right associativity).

Definition rmap {A B} (f : A -> B) (x : res A) : res B :=
  match x with Ok a => Ok (f a) | Panic => Panic | NoFuel => NoFuel end.

(** [Option::unwrap]. *)
Definition unwrap {A} (o : option A) : res A :=
  match o with Some a => Ok a | None => Panic end.

(* ------------------------------------------------------------------ *)
(** ** Characters and strings *)

Definition ceq (a b : N) : bool := N.eqb a b.

(** [&str] equality. *)
Fixpoint seq_eqb (a b : ustr) : bool :=
  match a, b with
  | [], [] => true
  | x :: a', y :: b' => N.eqb x y && seq_eqb a' b'
  | _, _ => false
  end.

(** [matches!(c, 'A' | 'B' | ...)], [slice.contains(&c)]. *)
Definition isin (c : N) (l : ustr) : bool := existsb (N.eqb c) l.
Definition isin_opt (c : option N) (l : ustr) : bool :=
  match c with Some c => isin c l | None => false end.
Definition opt_is (c : option N) (d : N) : bool :=
  match c with Some c => N.eqb c d | None => false end.

(** [char::len_utf8]. *)
Definition utf8_len (c : N) : nat :=
  if c <? 128 then 1%nat
  else if c <? 2048 then 2%nat
  else if c <? 65536 then 3%nat
  else 4%nat.

(** [str::len] (bytes). *)
Fixpoint blen (s : ustr) : nat :=
  match s with [] => 0%nat | c :: r => (utf8_len c + blen r)%nat end.

(** Split a string at a byte offset; [None] when the offset is past the end or
    not on a character boundary. *)
Fixpoint split_byte (n : nat) (s : ustr) : option (ustr * ustr) :=
  match n with
  | O => Some ([], s)
  | _ =>
      match s with
      | [] => None
      | c :: r =>
          if Nat.leb (utf8_len c) n then
            match split_byte (n - utf8_len c) r with
            | Some (a, b) => Some (c :: a, b)
            | None => None
            end
          else None
      end
  end.

(** [&s[n..]], [&s[..n]], [&s[a..b]] with byte offsets. *)
Definition slice_from (n : nat) (s : ustr) : res ustr :=
  match split_byte n s with Some (_, b) => Ok b | None => Panic end.
Definition slice_to (n : nat) (s : ustr) : res ustr :=
  match split_byte n s with Some (a, _) => Ok a | None => Panic end.
Definition slice (a b : nat) (s : ustr) : res ustr :=
  if Nat.ltb b a then Panic
  else match split_byte a s with
       | Some (_, r) => slice_to (b - a) r
       | None => Panic
       end.

(** [str::starts_with], [str::ends_with], [str::contains], [str::strip_prefix]. *)
Fixpoint strip_prefix (p s : ustr) : option ustr :=
  match p with
  | [] => Some s
  | x :: p' =>
      match s with
      | [] => None
      | y :: s' => if N.eqb x y then strip_prefix p' s' else None
      end
  end.
Definition starts_with (s p : ustr) : bool :=
  match strip_prefix p s with Some _ => true | None => false end.
Definition ends_with (s p : ustr) : bool := starts_with (rev s) (rev p).
Fixpoint contains_str (s p : ustr) : bool :=
  starts_with s p || match s with [] => false | _ :: r => contains_str r p end.

(** [str::replace(from, to)] for a non-empty [from]: non-overlapping matches,
    left to right.  [skip] counts the characters of a match still to drop. *)
Fixpoint replace_aux (from to : ustr) (skip : nat) (s : ustr) : ustr :=
  match s with
  | [] => []
  | c :: r =>
      match skip with
      | S k => replace_aux from to k r
      | O => if starts_with s from
             then to ++ replace_aux from to (length from - 1) r
             else c :: replace_aux from to 0 r
      end
  end.
Definition replace (from to s : ustr) : ustr := replace_aux from to 0 s.

(** [char::to_ascii_uppercase], [char::to_ascii_lowercase],
    [char::is_ascii_alphabetic]. *)
Definition is_ascii_upper (c : N) : bool := (65 <=? c) && (c <=? 90).
Definition is_ascii_lower (c : N) : bool := (97 <=? c) && (c <=? 122).
Definition is_ascii_alpha (c : N) : bool := is_ascii_upper c || is_ascii_lower c.
Definition is_ascii_digit (c : N) : bool := (48 <=? c) && (c <=? 57).
Definition ascii_up (c : N) : N := if is_ascii_lower c then c - 32 else c.
Definition ascii_low (c : N) : N := if is_ascii_upper c then c + 32 else c.

Definition is_ascii (c : N) : bool := c <? 128.
Definition ascii_str (s : ustr) : Prop := forall c, In c s -> (c < 128)%N.

(** Character access [s.chars().nth(i)]. *)
Definition nth_char (s : ustr) (i : nat) : option N := nth_error s i.
