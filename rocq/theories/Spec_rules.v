(** * Grammar of the rule files (specification).

    Relations [line s v rest]: the text [s] starts with a line carrying the
    value [v] and [rest] follows it.  They mention no parser. *)
From Verif Require Import Base.
Local Open Scope N_scope.

Definition LF : N := 10.
Definition CR : N := 13.
Definition QUOTE : N := 34.
Definition BACKSLASH : N := 92.

(** [line] is the first line of [text]. *)
Definition first_line (text line : ustr) : Prop :=
  ~ In LF line /\ (text = line \/ exists rest, text = line ++ LF :: rest).
Definition blanks (s : ustr) : Prop := forall c, In c s -> c = 32 \/ c = 9.

(** A comment introduced by // : everything up to the line feed. *)
Inductive slash_comment : ustr -> Prop :=
| no_comment : slash_comment []
| a_comment : forall text, ~ In LF text -> slash_comment ($ "//" ++ text).

(** The end of a line: optional blanks, an optional comment, then a line feed,
    or CR LF, or the end of the text. *)
Inductive line_end : ustr -> ustr -> Prop :=
| end_lf : forall b c rest, blanks b -> slash_comment c -> line_end (b ++ c ++ LF :: rest) rest
| end_crlf : forall b rest, blanks b -> line_end (b ++ CR :: LF :: rest) rest
| end_eof : forall b c, blanks b -> slash_comment c -> line_end (b ++ c) [].

(** A quoted part: the text has no quote (and is not a lone backslash, which
    would escape the closing quote), or it is an escaped quote. *)
Definition quotable (t : ustr) : Prop :=
  (~ In QUOTE t /\ t <> [BACKSLASH]) \/ t = [BACKSLASH; QUOTE].
Definition quoted (t : ustr) : ustr := QUOTE :: t ++ [QUOTE].

(** Four quoted parts on a line. *)
Inductive quad_line : ustr -> ustr * ustr * ustr * ustr -> ustr -> Prop :=
| quad_line_intro : forall a b c d s1 s2 s3 e rest,
    quotable a -> quotable b -> quotable c -> quotable d ->
    blanks s1 -> s1 <> [] -> blanks s2 -> s2 <> [] -> blanks s3 -> s3 <> [] ->
    line_end e rest ->
    quad_line (quoted a ++ s1 ++ quoted b ++ s2 ++ quoted c ++ s3 ++ quoted d ++ e) (a, b, c, d) rest.

(** x=y *)
Inductive fold_line : ustr -> N * N -> ustr -> Prop :=
| fold_line_intro : forall x y e rest, line_end e rest -> fold_line (x :: # "=" :: y :: e) (x, y) rest.

(** Comments spanning several lines: up to the first closing mark. *)
Inductive comment_line : ustr -> nat -> ustr -> Prop :=
| comment_line_intro : forall text e rest,
    contains_str (text ++ $ "*") $ "*/" = false ->
    line_end e rest ->
    comment_line ($ "/*" ++ text ++ $ "*/" ++ e) (S (count_occ N.eq_dec text LF)) rest.

(** The characters of an included name: letters, digits, - and _. *)
Definition file_name_char (alphanumeric : N -> bool) (c : N) : bool := alphanumeric c || isin c $ "-_".
(** #include name *)
Inductive include_line (name_char : N -> bool) : ustr -> ustr -> ustr -> Prop :=
| include_line_intro : forall name e rest,
    name <> [] -> (forall c, In c name -> name_char c = true) ->
    line_end e rest -> include_line name_char ($ "#include " ++ name ++ e) name rest.

(** A declared language: ASCII letters. *)
Inductive language_line : ustr -> ustr -> ustr -> Prop :=
| language_line_intro : forall name e rest,
    name <> [] -> (forall c, In c name -> is_ascii_alpha c = true) ->
    line_end e rest -> language_line (name ++ e) name rest.

(** A language rule: two space-free texts and true or false. *)
Inductive lang_line : ustr -> ustr * ustr * bool -> ustr -> Prop :=
| lang_line_intro : forall a b v e rest,
    a <> [] -> ~ In 32 a -> b <> [] -> ~ In 32 b ->
    line_end e rest ->
    lang_line (a ++ 32 :: b ++ 32 :: (if v : bool then $ "true" else $ "false") ++ e) (a, b, v) rest.
