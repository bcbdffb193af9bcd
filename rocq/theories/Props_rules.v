(** * Rule-file line parsers: C32, C33. *)
From Verif Require Import Base UnicodeM Lib RulesParser BaseLemmas Spec_rules Rules_proofs.
Local Open Scope N_scope.

(** C32: each line parser accepts exactly the lines of the grammar in
    [Spec_rules], with their value, and leaves exactly what follows the line. *)
Theorem C32_quadruplet : forall s q rest, quadruplet s = Some (q, rest) <-> quad_line s q rest.
Proof. exact quadruplet_spec. Qed.
Theorem C32_folding : forall s q rest, folding s = Some (q, rest) <-> fold_line s q rest.
Proof. exact folding_spec. Qed.
Theorem C32_include : forall u s name rest,
  include u s = Some (name, rest) <-> include_line (file_name_char (is_alphanumeric u)) s name rest.
Proof. exact include_spec. Qed.
Theorem C32_language : forall s name rest, language s = Some (name, rest) <-> language_line s name rest.
Proof. exact language_spec. Qed.
Theorem C32_lang : forall s q rest, lang s = Some (q, rest) <-> lang_line s q rest.
Proof. exact lang_spec. Qed.

(** Reading back a printed line: four texts without quote, printed between
    quotes, one space apart, come back unchanged, whatever follows the line. *)
Theorem C32_quadruplet_roundtrip : forall a b c d rest,
  (forall t, In t [a; b; c; d] -> ~ In QUOTE t /\ t <> [BACKSLASH]) ->
  quadruplet (quoted a ++ $ " " ++ quoted b ++ $ " " ++ quoted c ++ $ " " ++ quoted d ++ LF :: rest)
  = Some ((a, b, c, d), rest).
Proof.
  intros a b c d rest H. apply quadruplet_spec.
  assert (B : blanks $ " ") by (intros x [<-|[]]; now left).
  constructor; try (left; apply H; cbn; tauto); try assumption; try discriminate.
  apply (end_lf [] [] rest); [intros ? []|constructor].
Qed.
(** The values can be told apart: a line has one reading. *)
Theorem C32_one_reading : forall s q q' rest rest', quad_line s q rest -> quad_line s q' rest' -> q = q' /\ rest = rest'.
Proof. intros s q q' rest rest' H H'. apply quadruplet_spec in H, H'. rewrite H in H'. injection H' as <- <-. auto. Qed.
Theorem C32_folding_roundtrip : forall x y rest, folding (x :: # "=" :: y :: LF :: rest) = Some ((x, y), rest).
Proof. intros x y rest. apply folding_spec. constructor. apply (end_lf [] [] rest); [intros ? []|constructor]. Qed.
Theorem C32_include_roundtrip : forall u name rest, name <> [] -> (forall c, In c name -> file_name_char (is_alphanumeric u) c = true) ->
  include u ($ "#include " ++ name ++ LF :: rest) = Some (name, rest).
Proof. intros u name rest N H. apply include_spec. constructor; [assumption|assumption|]. apply (end_lf [] [] rest); [intros ? []|constructor]. Qed.
Theorem C32_language_roundtrip : forall name rest, name <> [] -> (forall c, In c name -> is_ascii_alpha c = true) ->
  language (name ++ LF :: rest) = Some (name, rest).
Proof. intros name rest N H. apply language_spec. constructor; [assumption|assumption|]. apply (end_lf [] [] rest); [intros ? []|constructor]. Qed.
Theorem C32_lang_roundtrip : forall re langs (accept : bool) rest,
  re <> [] -> ~ In 32 re -> langs <> [] -> ~ In 32 langs ->
  lang (re ++ $ " " ++ langs ++ $ " " ++ (if accept then $ "true" else $ "false") ++ LF :: rest)
  = Some ((re, langs, accept), rest).
Proof.
  intros re langs accept rest N1 F1 N2 F2. apply lang_spec.
  apply (lang_line_intro re langs accept (LF :: rest) rest); try assumption.
  apply (end_lf [] [] rest); [intros ? []|constructor].
Qed.
(** Progress: a parser that succeeds consumed something (the end-of-line parser
    succeeds without consuming only on the empty text). *)
Theorem C32_progress : forall u s,
  (forall q rest, quadruplet s = Some (q, rest) -> exists c, s = c ++ rest /\ c <> [])
  /\ (forall q rest, folding s = Some (q, rest) -> exists c, s = c ++ rest /\ c <> [])
  /\ (forall n rest, include u s = Some (n, rest) -> exists c, s = c ++ rest /\ c <> [])
  /\ (forall n rest, language s = Some (n, rest) -> exists c, s = c ++ rest /\ c <> [])
  /\ (forall q rest, lang s = Some (q, rest) -> exists c, s = c ++ rest /\ c <> [])
  /\ (forall n rest, multiline_comment s = Some (n, rest) -> exists c, s = c ++ rest /\ c <> [])
  /\ (forall v rest, end_of_line s = Some (v, rest) -> s <> [] -> exists c, s = c ++ rest /\ c <> []).
Proof.
  intros u s. split; [|split; [|split; [|split; [|split; [|split]]]]].
  - intros q rest H. apply quadruplet_spec in H. eapply quad_progress; exact H.
  - intros q rest H. apply folding_spec in H. eapply fold_progress; exact H.
  - intros n rest H. apply include_spec in H. eapply include_progress; exact H.
  - intros n rest H. apply language_spec in H. eapply language_progress; exact H.
  - intros q rest H. apply lang_spec in H. eapply lang_progress; exact H.
  - intros n rest H. apply multiline_comment_spec in H. eapply comment_progress; exact H.
  - intros v rest H N. apply end_progress; [assumption|]. apply end_of_line_spec. eauto.
Qed.
(** Refuted reading: the pattern backslash quote does not denote a quote; it
    stays two characters, so it matches no text without a backslash. *)
Theorem C32_escaped_quote_keeps_backslash : forall rest,
  part (quoted [BACKSLASH; QUOTE] ++ rest) = Some ([BACKSLASH; QUOTE], rest).
Proof. intros rest. apply part_spec. split; [now right|reflexivity]. Qed.
(** Refuted reading: a quoted lone backslash is not accepted as that text. *)
Theorem C32_lone_backslash_refuted : forall rest, part (quoted [BACKSLASH] ++ rest) <> Some ([BACKSLASH], rest).
Proof. intros rest H. apply part_spec in H as [[[_ H]|H] _]; [now elim H|discriminate]. Qed.
(** A quoted part may contain line feeds: a rule can span several lines. *)
Theorem C32_part_may_contain_line_feed : forall rest, part (quoted [LF] ++ rest) = Some ([LF], rest).
Proof. intros rest. apply part_spec. split; [|reflexivity]. left. split; [intros [H|[]]; discriminate|discriminate]. Qed.

Example C32_nonvacuous :
  quadruplet (str """a"" ""^(b|c)"" """" ""(x[1]|y)"" // note
next")%string = Some (($ "a", $ "^(b|c)", [], $ "(x[1]|y)"), $ "next")
  /\ folding $ "ß=s // sharp" = Some ((# "ß", # "s"), [])
  /\ include latin1_only $ "#include gen_approx-1
x" = Some ($ "gen_approx-1", $ "x")
  /\ lang $ "^ab$ greek+latin false" = Some (($ "^ab$", $ "greek+latin", false), [])
  /\ quadruplet $ """a"" ""b"" ""c""" = None.
Proof. split; [|split; [|split; [|split]]]; vm_compute; reflexivity. Qed.

(** C33: end of line and comments. *)
Theorem C33_end_of_line : forall s rest, (exists v, end_of_line s = Some (v, rest)) <-> line_end s rest.
Proof. exact end_of_line_spec. Qed.
(** A comment swallows its text and exactly one line feed. *)
Theorem C33_single_line_comment : forall text rest, ~ In LF text ->
  exists v, end_of_line ($ "//" ++ text ++ LF :: rest) = Some (v, rest).
Proof.
  intros text rest H. apply end_of_line_spec.
  change ($ "//" ++ text ++ LF :: rest) with ([] ++ ($ "//" ++ text) ++ LF :: rest) || rewrite app_assoc.
  apply (end_lf [] ($ "//" ++ text) rest); [intros ? []|now constructor].
Qed.
(** What is left never starts inside the comment: nothing but the end of the text
    or what follows the first line feed. *)
Theorem C33_stops_at_line_feed : forall s v rest, end_of_line s = Some (v, rest) ->
  rest = [] \/ exists line, s = line ++ LF :: rest /\ ~ In LF line.
Proof.
  intros s v rest H. assert (L : line_end s rest) by (apply end_of_line_spec; eauto).
  assert (NB : forall b, blanks b -> ~ In LF b).
  { intros b Hb K. apply Hb in K as [K|K]; discriminate. }
  assert (NC : forall c, slash_comment c -> ~ In LF c).
  { intros c [|t Ht] K; [destruct K|]. cbn in K. destruct K as [K|[K|K]]; [discriminate|discriminate|contradiction]. }
  destruct L as [b c rest Hb Hc|b rest Hb|b c Hb Hc]; [right|right|now left].
  - exists (b ++ c). split; [now rewrite <- app_assoc|]. intros K. apply in_app_or in K as [K|K]; [apply (NB b Hb K)|apply (NC c Hc K)].
  - exists (b ++ [CR]). split; [now rewrite <- app_assoc|]. intros K. apply in_app_or in K as [K|[K|[]]]; [apply (NB b Hb K)|discriminate].
Qed.
(** A /* */ comment ends at the first closing mark; the value is the number of
    lines it touches. *)
Theorem C33_multiline_comment : forall s n rest, multiline_comment s = Some (n, rest) <-> comment_line s n rest.
Proof. exact multiline_comment_spec. Qed.
Theorem C33_lines_counted : forall text n rest e,
  contains_str (text ++ $ "*") $ "*/" = false -> line_end e rest ->
  multiline_comment ($ "/*" ++ text ++ $ "*/" ++ e) = Some (n, rest) ->
  n = S (count_occ N.eq_dec text LF).
Proof.
  intros text n rest e C E H.
  assert (K : multiline_comment ($ "/*" ++ text ++ $ "*/" ++ e) = Some (S (count_occ N.eq_dec text LF), rest))
    by (apply multiline_comment_spec; now constructor).
  rewrite K in H. now injection H.
Qed.
Example C33_nonvacuous :
  multiline_comment $ "/* a
b * / */ // end
x" = Some (2%nat, $ "x") /\ multiline_comment $ "/* a */ b" = None.
Proof. split; vm_compute; reflexivity. Qed.
