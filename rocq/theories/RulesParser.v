(** * Rule-file parsers (src/rules_parser.rs).

    The code composes parsers of the [nom] 8 crate (the "complete" variants).
    A parser is modelled as a function returning the parsed value and the rest
    of the input, or [None] for an error; the small combinators used are given
    first, with the behaviour documented by nom. *)
From Verif Require Import Base UnicodeM.
Local Open Scope N_scope.

Definition parser (A : Type) := ustr -> option (A * ustr).

Definition pbind {A B} (p : parser A) (f : A -> parser B) : parser B := fun s =>
  match p s with Some (a, r) => f a r | None => None end.
Definition pret {A} (a : A) : parser A := fun s => Some (a, s).

(** nom [tag]: the literal text. *)
Definition tag (t : ustr) : parser ustr := fun s =>
  match strip_prefix t s with Some r => Some (t, r) | None => None end.

(** nom [char]. *)
Definition pchar (c : N) : parser N := fun s =>
  match s with x :: r => if x =? c then Some (c, r) else None | [] => None end.

(** nom [anychar]. *)
Definition anychar : parser N := fun s =>
  match s with x :: r => Some (x, r) | [] => None end.

(** nom [eof]. *)
Definition eof : parser ustr := fun s => match s with [] => Some ([], []) | _ => None end.

(** The longest prefix of characters satisfying [f], and the rest. *)
Fixpoint span (f : N -> bool) (s : ustr) : ustr * ustr :=
  match s with
  | [] => ([], [])
  | c :: r => if f c then let '(a, b) := span f r in (c :: a, b) else ([], s)
  end.

(** nom [take_while1]; [take_till1 f] is [take_while1] of the negation,
    [is_not "\n"] is [take_while1] of being different from a line feed, [space1]
    of being a space or a tab and [alpha1] of being an ASCII letter. *)
Definition take_while1 (f : N -> bool) : parser ustr := fun s =>
  match span f s with ([], _) => None | (a, b) => Some (a, b) end.
Definition space1 : parser ustr := take_while1 (fun c => (c =? 32) || (c =? 9)).
Definition alpha1 : parser ustr := take_while1 is_ascii_alpha.
Definition is_not_lf : parser ustr := take_while1 (fun c => negb (c =? 10)).

(** nom [take_until]: the text before the first occurrence of [t]; fails when
    there is none. *)
Fixpoint take_until (t s : ustr) : option (ustr * ustr) :=
  if starts_with s t then Some ([], s)
  else match s with
       | [] => None
       | c :: r => match take_until t r with Some (a, b) => Some (c :: a, b) | None => None end
       end.

(** nom [opt], [alt], [terminated], [preceded], [map]. *)
Definition popt {A} (p : parser A) : parser (option A) := fun s =>
  match p s with Some (a, r) => Some (Some a, r) | None => Some (None, s) end.
Definition palt {A} (p q : parser A) : parser A := fun s =>
  match p s with Some x => Some x | None => q s end.
Definition terminated {A B} (p : parser A) (q : parser B) : parser A :=
  pbind p (fun a => pbind q (fun _ => pret a)).
Definition preceded {A B} (p : parser A) (q : parser B) : parser B := pbind p (fun _ => q).
Definition pmap {A B} (f : A -> B) (p : parser A) : parser B := pbind p (fun a => pret (f a)).

(** [comment.split('\n').count()]: one more than the number of line feeds. *)
Definition count_lines (s : ustr) : nat := S (count_occ N.eq_dec s 10).

(** src/rules_parser.rs:35-40, [eol_comment]. *)
Definition eol_comment : parser unit :=
  pbind (tag $ "//") (fun _ => pbind (popt is_not_lf) (fun _ => pret tt)).

(** src/rules_parser.rs:59-66, [end_of_line]. *)
Definition end_of_line : parser (option ustr * option unit) :=
  terminated
    (pbind (popt space1) (fun a => pbind (popt eol_comment) (fun b => pret (a, b))))
    (palt eof (palt (tag [10]) (tag [13; 10]))).

(** src/rules_parser.rs:17-26, [multiline_comment]. *)
Definition multiline_comment : parser nat :=
  terminated
    (pbind (tag $ "/*") (fun _ =>
     pbind (take_until $ "*/") (fun comment =>
     pbind (tag $ "*/") (fun _ => pret (count_lines comment)))))
    end_of_line.

(** src/rules_parser.rs:43-52. *)
Definition boolean_true : parser bool := pmap (fun _ => true) (tag $ "true").
Definition boolean_false : parser bool := pmap (fun _ => false) (tag $ "false").

(** src/rules_parser.rs:69-73, [part]: a quoted text ([\] followed by a double
    quote is tried first, and [alt] does not come back on it). *)
Definition part : parser ustr :=
  pbind (pchar (# """")) (fun _ =>
  pbind (palt (tag $ "\""") (take_until $ """")) (fun t =>
  pbind (pchar (# """")) (fun _ => pret t))).

(** src/rules_parser.rs:78-89, [quadruplet]. *)
Definition quadruplet : parser (ustr * ustr * ustr * ustr) :=
  pbind (terminated part space1) (fun a =>
  pbind (terminated part space1) (fun b =>
  pbind (terminated part space1) (fun c =>
  pbind (terminated part end_of_line) (fun d => pret (a, b, c, d))))).

(** src/rules_parser.rs:92-95, [folding]. *)
Definition folding : parser (N * N) :=
  terminated (pbind anychar (fun a => pbind (pchar (# "=")) (fun _ => pbind anychar (fun b => pret (a, b)))))
             end_of_line.

(** src/rules_parser.rs:98-106, [lang]. *)
Definition not_space (c : N) : bool := negb (c =? 32).
Definition lang : parser (ustr * ustr * bool) :=
  pbind (terminated (take_while1 not_space) (pchar 32)) (fun a =>
  pbind (terminated (take_while1 not_space) (pchar 32)) (fun b =>
  pbind (terminated (palt boolean_true boolean_false) end_of_line) (fun c => pret (a, b, c)))).

(** src/rules_parser.rs:109-118, [include]. *)
Definition include_char (u : Unicode) (c : N) : bool :=
  is_alphanumeric u c || (c =? # "-") || (c =? # "_").
Definition include (u : Unicode) : parser ustr :=
  terminated (preceded (tag $ "#include ") (take_while1 (include_char u))) end_of_line.

(** src/rules_parser.rs:121-124, [language]. *)
Definition language : parser ustr := terminated alpha1 end_of_line.
