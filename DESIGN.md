# rphonetic: formal model and proofs in Rocq (Coq 8.16.1)

## 1. Approach

Every encoder of the crate is written as an executable Gallina function, function by
function, with the source lines cited in the comment above each definition.  Strings are
lists of code points (`ustr := list N`); byte offsets are kept wherever the Rust code uses
them (`blen`, `split_byte`, `slice*`), so that the panics caused by slicing inside a
character are visible.  A panic is the value `Panic`; a fuelled loop that runs out returns
`NoFuel`, which the theorems exclude (or, for include cycles, C55, show to be the only
outcome whatever the fuel).  The properties are stated against small, separate
specifications (`Spec_*.v`, or definitions local to the statement) and proved for all inputs
by induction.  False properties are refuted by a witness (`*_refuted`).

Layers:

* values: `Base.v`, `UnicodeM.v` (with `UnicodeReal.v`: a concrete instance of the tables for
  the characters used in examples), lemmas in `BaseLemmas.v`, `UnicodeLemmas.v`, `Upper_ok.v`;
* the model: one file per source file (table below);
* specifications: `Spec_*.v`, written without using the model's functions (they share only
  `Base.v`/`UnicodeM.v` values and data types, such as "a rule is a record of four texts").
  They are mostly inductive relations: rewriting passes, contextual rule tables read from left
  to right, readings of rule files, the collection of phonemes;
* proofs: `*_proofs.v` (lemmas) and `Props_*.v` (the theorems `Cxx_*`, non-vacuity examples and
  `Print Assumptions`);
* `Conformance_*.v` evaluate the unit-test vectors of /repo on the model (3600+ vectors): they
  are tests of fidelity of the model, not proofs of properties.
* `tools/difftest/` compares the extracted model with a Python port written from the Rust text (byte
  offsets and boundary panics included): 540 000 random names for the eleven simple encoders, 180 000
  for Beider-Morse over test_assets/cc-rules, 240 000 random or damaged rule texts for the parsers
  (tables, line numbers, error texts, panics).  No difference was found, except where the two
  stand-ins for the regular-expression engine disagree on exotic patterns.  It is a test of the
  model's fidelity; no theorem depends on it.

`MANIFEST.json` (generated by `tools/gen_manifest.py`) lists the theorems of each property, and
`tools/statements.py` prints their statements.

## 2. What is modelled

| source | model |
|---|---|
| src/lib.rs (traits, difference, soundex_clean, build_error, ParseError) | Lib.v |
| src/helper.rs (all functions, CharSequence and its Index impls) | Helper.v |
| src/soundex.rs, src/refined_soundex.rs | Soundex.v |
| src/cologne.rs | Cologne.v |
| src/caverphone.rs | Caverphone.v |
| src/nysiis.rs | Nysiis.v |
| src/phonex.rs | Phonex.v |
| src/metaphone.rs | Metaphone.v |
| src/double_metaphone.rs | DoubleMetaphone.v |
| src/match_rating_approach.rs | MatchRating.v |
| src/rules_parser.rs | RulesParser.v |
| src/daitch_mokotoff.rs, rules/dmrules.txt | DaitchMokotoff.v, DmRules.v |
| src/beider_morse/languages.rs, name/rule types | BmLanguages.v |
| src/beider_morse/regex_optim.rs | BmRegex.v |
| src/beider_morse/rule.rs | BmRule.v |
| src/beider_morse/lang.rs, engine.rs, mod.rs | BmEngine.v |
| rules/bm/*.txt (embedded configuration) | BmEmbedded.v, BmDefault.v |
| test_assets/cc-rules/*.txt | BmCcRules.v (data of tests and witnesses) |
| constructors, `Default`, builders' setters, `Display`/`PartialEq` of public values, `String::with_capacity` limits | Api.v |
| derived `Serialize`/`Deserialize` of the public types | Serde.v |
| derived `Ord`/`Eq` of the public types | Compare.v |

Not modelled: Clone, Debug, Hash; the derives of private types; Display of the private types (Rule, Phoneme, OptimizedRegex, LangRule);
exhaustion of memory or of the stack (except that a capacity above isize::MAX panics, C75, and
that unbounded recursion is `NoFuel`, C55); `lazy_static`; benches.  Integers are unbounded,
except where a property is about overflow: `CharSequence` inclusive ranges and
`MatchRatingApproach` take the build profile (`Checked`/`Wrapping`) explicitly.  Byte lengths of
texts are assumed to fit in `isize`, as Rust guarantees.

## 3. Oracles

* `Unicode` (UnicodeM.v): the standard library's tables for code points >= 256 (is_alphabetic,
  is_numeric, is_lowercase, is_whitespace, Cased, Case_Ignorable, to_uppercase, to_lowercase).
  Code points below 256 are concrete.  Theorems quantify over the record; those that need a
  fact about the real tables take it as an explicit hypothesis: `UnicodeOK`, `LowerOK`,
  `UpperOK`, `LettersOK`, `no_new_space` are small documented facts about case mapping, and each
  is shown to be satisfiable by `real_unicode` (UnicodeReal.v), so no theorem is vacuous.
* `RegexEngine` (BmRegex.v): the `regex` crate (validity, error text, is_match).  Theorems
  quantify over it.  `MiniRegex.v` gives a denotational semantics for the fragment occurring in
  rule files, used as the specification of the optimised context matcher and, in tests, as the
  engine.
* `directory` (BmLanguages.v): the file system seen by the Beider-Morse builder: the outcome of
  listing the directory (an error text, or a list of entries each of which may itself be an
  error), the outcome of reading each file (content or the operating system's error text), and the
  path printed for a file.  It is assumed not to change while it is read.
* nom 8 (complete) combinators are modelled by their documented behaviour (RulesParser.v).
* `BTreeMap`/`BTreeSet`: association lists / strictly increasing lists.
* Fuel: loops over positions get fuel from the length of their input and are proved never to
  exhaust it; the depth of inclusion of rule files is a parameter, and statements about it say
  "for some depth" / "for every greater depth".

## 4. Trusted base

Coq 8.16.1's kernel and `vm_compute`; the reading of the Rust source (checked by the unit-test
vectors in `Conformance_*.v`); the oracles above.  No axiom is declared; `Print Assumptions`
prints "Closed under the global context" for every property theorem (see the build log; any
exception is listed here: none).  Coq's own `NArith` transitively loads the seven `Under_rel`
parameters of ssreflect's `under` tactic (Coq.ssr.ssrunder); they show up when the whole
library context is listed but no theorem here depends on them.

## 5. What the proofs found

Facts about the code that a user may not expect; each is a theorem.

* Soundex and RefinedSoundex panic when a letter outside A-Z survives cleaning (C07, C11);
  Caverphone and strict NYSIIS panic when the cut falls inside a character (C67, C65); Metaphone
  uses character indices as byte indices and panics on e.g. "Château" (C25); Double Metaphone
  panics on e.g. "Cédric" (C27); MatchRatingApproach panics on several texts, and its comparison
  differs between build profiles (C31).
* `CharSequence` inclusive ranges ending at usize::MAX: panic or empty according to the profile (C04).
* Phonex codes can be longer than a maximal length of 1 (C21, C66); Phonex and Double Metaphone
  panic for every text if the limit exceeds isize::MAX (C75).
* Double Metaphone's test for the prefixes VAN/VON never succeeds (C60).
* Daitch-Mokotoff: skips by bytes, so multi-byte patterns skip too far (C39); panics on non-ASCII
  replacements and on empty patterns (C35, C41); an error's line number does not count comment
  lines (C34); soundex can list the same code twice (C40).
* Beider-Morse: 'de la' is never recognised as a particle (C58); an included file *replaces* rules with the
  same first character (C54); include cycles never end (C55); a missing list of languages is
  a panic, not an error (C56); errors about regular expressions show the line *after* the
  offending one (C70); the "optimised" matcher differs from the regular expression for groups and
  dots (C44); the limit on phonemes does not hold after final rules (C46); languages of merged
  phonemes are not the union (C63); given languages are ignored for composite names (C53).
* The documentation of the builder's `concat` says the default does not concatenate; it does (C72).

## 6. Properties: what is modelled and how it is proved

* **C01 is_encoded_equals is equality of codes** — generic in the encoder; from seq_eqb reflection.
* **C02 difference counts equal positions** — count_same induction; Soundex instance from C05.
* **C03 CharSequence slices by character** — cs_* vs firstn/skipn on characters; induction on the string with byte offsets generalised.
* **C04 CharSequence inclusive range at usize::MAX** — direct from succ_usize for both profiles.
* **C05 Soundex code format** — invariant of soundex_loop (count = 1 + length code, digits).
* **C06 Soundex computes the American Soundex definition** — separate declarative spec (collapse runs, drop vowels, pad); loop invariant.
* **C07 Soundex totality boundary** — C06 gives totality; witness for the panic.
* **C08 Soundex ignores case and non-letters** — soundex_clean commutes with deletions; ASCII case.
* **C09 Soundex construction from custom mappings** — case analysis on the length.
* **C10 RefinedSoundex definition and format** — spec with run collapsing; induction.
* **C11 RefinedSoundex totality boundary** — as C07.
* **C12 Cologne code alphabet and totality** — push invariant on the reversed buffer.
* **C13 Cologne computes its letter table** — spec: list of codes per letter then collapse; induction over the loop.
* **C14 Cologne invariances** — congruence of the preparation; witness for P-H.
* **C15 Caverphone code format** — alphabet tracking through the passes: each pass removes/introduces known characters.
* **C16 Caverphone totality boundary** — byte-slice lemma; witness.
* **C17 Caverphone ignores case and non-letters** — preparation congruence.
* **C18 Nysiis strict is truncation** — truncation of the produced key.
* **C19 Nysiis key shape** — loop invariants.
* **C20 Nysiis totality boundary** — ASCII => no slice panic; witness.
* **C21 Phonex code length and format** — loop invariant on output length.
* **C22 Phonex totality and invariances** — preprocess congruence.
* **C23 Metaphone maximum length is truncation** — simulation between the loop with and without limit.
* **C24 Metaphone alphabet, case and totality** — case analysis of the handlers.
* **C25 Metaphone non-ASCII boundary** — exact panic condition: the byte offsets read by each handler are computed from the spec's own places; induction over the scan.
* **C26 DoubleMetaphone maximum length is truncation** — simulation between limits.
* **C27 DoubleMetaphone totality and alphabet** — handlers total on ASCII; alphabet by case analysis.
* **C28 DoubleMetaphone invariances and equality** — congruence; reflection.
* **C29 MatchRatingApproach code format** — get_first3_last3 length; filter.
* **C30 MatchRatingApproach comparison** — symmetry of the rating.
* **C31 MatchRatingApproach totality boundary** — witnesses and totality on ASCII.
* **C32 Rule-file tokens round trip** — parser/printer inversion.
* **C33 Comment parsing** — take_until characterisation.
* **C34 Parse errors point at the offending text** — until_lf; induction on the parse loop; witness.
* **C35 Daitch-Mokotoff code format** — branch invariant.
* **C36 Daitch-Mokotoff encode versus soundex** — the first branch of the branching run is the non-branching run (simulation).
* **C37 Daitch-Mokotoff picks the longest matching rule** — stable sort lemma + find.
* **C38 Daitch-Mokotoff cleanup** — source congruence.
* **C39 Daitch-Mokotoff scanning advances past the matched pattern** — segmentation spec; witness for multi-byte patterns.
* **C40 Daitch-Mokotoff repeated codes** — multiplicity of a code = number of branches; witness.
* **C41 Daitch-Mokotoff builder terminates and rejects or accepts** — fuel adequacy: each parser consumes.
* **C42 LanguageSet algebra** — denotation of sets.
* **C43 Phoneme ordering** — ph_cmp = lexicographic; sorted-set invariants.
* **C44 Optimised context matcher agrees with the regular expression** — MiniRegex denotation; refuted for groups and ranges.
* **C45 Language guessing** — fold invariant.
* **C46 Beider-Morse phoneme limit** — pb_apply bound; witness for final rules.
* **C47 Beider-Morse alternatives are sorted and distinct** — sortedness invariant through all phases.
* **C48 Beider-Morse computes its specification and terminates** — inductive relation for the phases (Spec_bm_engine, Spec_bm_name, Spec_bm_all); soundness, completeness, fuel adequacy.
* **C49 Beider-Morse name prefixes** — unfolding with fuel irrelevance.
* **C50 Beider-Morse word joining** — idem.
* **C51 Beider-Morse rule availability** — build invariants; witness.
* **C52 Name and rule type text forms** — case analysis.
* **C53 given languages ignored for composite names** — fuel irrelevance, both sides equal the spec's parts.
* **C54 rule files and includes** — declarative reading of a file (Spec_bm_file); soundness, completeness and uniqueness by induction on the inclusion depth and the lines.
* **C55 include cycles** — no derivation of the (inductive) reading exists; every depth gives NoFuel.
* **C56 missing language list** — build unfolded on any directory without the list.
* **C57 streaming** — from C06/C10's definitions, prefix lemmas of collapse. `Props_streaming`: any mapping and text, by induction on the loops.
* **C58 'de la'** — order of the particle list.
* **C59 silent first letters** — from C68's definition.
* **C60 VAN/VON** — window length argument; then the rule table for the codes.
* **C61 phonemes come from rules** — invariant through the phases.
* **C62 phoneme expressions** — grammar spec vs parser.
* **C63 final rules merge languages** — spec of insertion keeping the first; witness.
* **C64 case and layout** — normal form of the name; `Props_sigma.v`: the two small forms of a Greek capital sigma (final and medial), from a specification of word ends.
* **C65 NYSIIS rules** — Spec_nysiis: rewriting relation with contexts; functional determinism and simulation, for every text.
* **C66 Phonex rules** — Spec_phonex, likewise.
* **C67 Caverphone passes** — Spec_caverphone: list of rewriting passes; each model pass is the leftmost-rewriting relation of Spec_rewrite.
* **C68 Metaphone rules** — Spec_metaphone table; simulation of the loop; partiality described by C25.
* **C69 Double Metaphone table** — Spec_double_metaphone contextual table; handlers against the table letter by letter. The exact panic criterion (C69_panics_iff, C69_returns_iff) is stated with Spec_double_metaphone_looks: for each letter, the ordered comparisons with neighbouring bytes as a small decision plan; the handlers are shown to perform exactly these looks (Double_metaphone_looks_proofs).
* **C70 error contents** — positions of lines through the readers of the three kinds of files.
* **C71 first problem** — Spec_bm_errors: ordered list of possible problems of a directory; the build returns the first.
* **C72 files to code** — composition of C48, C54, C45 with the builder.
* **C73 defaults**, **C74 builder settings**, **C75 limits**, **C76 printed texts** — Api.v; corollaries of the encoders' theorems; injectivity of the printing functions under explicit side conditions, with counterexamples without them.
* **C77 Daitch-Mokotoff with any rule file** — Spec_dm_any: the scan, all selections of replacements, codes cut at six bytes; simulation of the branches with the set of selections, a panic exactly when one of them is torn.
* **C78 Beider-Morse and the regular-expression engine** — Spec: agreement of two engines on the patterns one accepts; the standard meaning of plain patterns is the denotation `re_at` of MiniRegex.v. Invariant: every pattern kept in a loaded table is accepted by the engine that loaded it; induction over parsing and over the encoding loops. The embedded files are loaded by the kernel with an engine that accepts only plain patterns, for an arbitrary Unicode table.
* **C79 Serialised forms** — Serde.v models what serde's derive macros generate, as a self-describing format (JSON) drives it; error texts and the syntax of the format are not modelled. Spec_serde.v says which values a document gives to which fields. Each reader is proved equivalent to that description, and round trips follow.
* **C80 Comparisons of the public types** — Compare.v models the derived `Ord`. Each comparison is a lexicographic product of total orders; its `Lt` is spelled out; the order of texts by characters is proved equal to the order of their UTF-8 bytes, and the model's byte lengths to the number of those bytes.
* **C81 Exactly which codes exist** — Spec_codes.v gives the forms. Forward: the alphabet and shape theorems, and invariants of the rewriting passes for Caverphone. Backward: a text is built syllable by syllable and its code computed by induction; for Metaphone and Double Metaphone each sound has a syllable that is read the same in every window (Window_proofs.v evaluates the contextual rules on partly known windows). NYSIIS: invariants of the left-to-right transcoder and a text read back letter by letter (Codes_nysiis_proofs.v). Daitch-Mokotoff: every branch of the embedded rules keeps the form, and each digit has a syllable (Codes_daitch_proofs.v). Alternate Double Metaphone codes: the space is only appended for a J at the last byte, so nothing follows it (Codes_alternate_proofs.v). Not covered: Beider-Morse codes. How many codes there are: the form is split into disjoint unions of injective images of lists of words (letters of an alphabet up to a length; a letter in front; filling up), whose numbers multiply and add; nothing is enumerated.
* **C82 How many codes Daitch-Mokotoff answers** — counting over the selections of C77: the listed codes are pairwise told apart by the text kept (cut to six bytes) and the last replacement, so their number is at most (words of up to six characters) x (alternatives of the last field); the product bound is the number of selections. The bound for the embedded rules is not tight (1608 codes are known to be reachable by a search over replacement lists).
* **C83 The alphabet of Beider-Morse codes** — the general part (C61_remaining, C61_code_characters) is an induction over the relations of C48: the final scans keep a character only when no rule applies there, and a rule with pattern [c] and two contexts that every text satisfies always applies. The six alphabets are then a computed statement about the tables that the embedded files load to (with an abstract Unicode), transferred to every standard engine by C78; that each sound occurs is computed with one witness word per sound.
* **C84 The limit and the size of Beider-Morse codes** — induction over the scans of C48 with two invariants: after i characters there are at most k^i phonemes of at most l*i characters, so a limit above is never met (`combined_all`); then part induction over the value. The rates of the rules in the crate are computed from the loaded tables. That raising the limit can lose an alternative (C84_raising_refuted) is a computed witness, found by a search with tools/difftest/port_beider_morse.py.
* **C85 doubled letters** — `harmless outcome texts c` (Spec_doubled.v): inserting a second `c` next to any `c` of any text of the kind leaves the outcome. Soundex/Refined by induction over the loops (any mapping, panics included), Cologne from its table (C13), Metaphone from its published rules (C68: the readings of the two texts correspond position by position), MRA and Phonex over the model, Daitch-Mokotoff by a theorem about any rule table meeting three checked conditions, instantiated for the embedded one. The sets of letters are exact (`_iff`) for Cologne, Metaphone, MRA, Phonex, Daitch-Mokotoff, NYSIIS and Caverphone; for Double Metaphone every letter has a witness. NYSIIS: the loop over two equal letters does the second's work in the first's place (Nysiis_doubled_proofs.v). Caverphone: a decision procedure over the published passes, proved sound, follows the one extra character (and the character after it) from pass to pass until it is gone (Caverphone_doubled_proofs.v), and is run on each letter.
* **C86 settled** — `settled outcome texts n` (Spec_longer.v): code(a) = kept ++ given_up, code(a ++ b) = kept ++ added with |given_up| ≤ n. Soundex/Refined/Cologne from their definitions (prefix lemmas of collapsing), Metaphone over the published rules (a letter looks at most two letters ahead; CH at the beginning of a three-letter word apart), Phonex over the loop, MRA from its definition (C29), Daitch-Mokotoff by a theorem about any rule table meeting a checked condition (what is read of a pattern gives at most n digits). Exact (`_iff`) for Cologne, Metaphone, Phonex, MRA, Daitch-Mokotoff. Double Metaphone: refuted for every n by the family QGNÇ…Ç, continued with K (Slavo-Germanic spelling is decided on the whole text). NYSIIS (Props_longer_nysiis.v): the loop is a letter-by-letter rewriting of fixed length followed by dropping repetitions; it looks at most two letters ahead, rewriting the end and finishing the key account for the rest; exact bound 4, strict keys included. Nothing is claimed about Caverphone and Beider-Morse.
* **C87 Coarser and finer encoders** — stated with `is_encoded_equals` only (`finer f e`: what `f` calls equal `e` calls equal). The limits follow from the truncation theorems (C18, C23, C26, C66); Refined Soundex to Soundex by showing that collapsing runs of refined digits before or after translating them and dropping the transparent ones gives the same digits (`collapse_through`), for every pair of tables (`table_refines`); independence of the defaults by one witness pair per encoder, computed for every Unicode table.
* **C88 Names without a code** — `Spec_blank.v` says which names are blank (`nysiis_keyless`, `metaphone_quiet`); each exact theorem is proved from the declarative description of the encoder (C24, C66, C68, C29, C19/C65), the guarantee sets from an invariant of the rules: every step of Metaphone, Double Metaphone, every Caverphone pass (a computed set of letters each pass keeps non-empty, `keep_all`) and every Daitch-Mokotoff rule (`rule_check`, computed over the table read from the rule file) leaves a sound for such a letter; the converse by one blank name per other letter, computed for every Unicode table.
* **C89 letters that may be exchanged** — `Spec_exchange.v` says what exchanging two letters between texts of given kinds means; `Props_exchange.v` proves for every encoder but Beider-Morse which pairs of capitals never matter (by induction on what stands before; for Caverphone pass by pass; for Daitch-Mokotoff under conditions computed from the rule table) and, with a short list of contexts, that every other pair does. For Phonex, Metaphone and Double Metaphone the second half is for the default maximum length (Metaphone also without one); for the first Daitch-Mokotoff code only the first half.
* **C90 characters that may be left out** — `may_be_left_out outcome before texts c` (Spec_leave_out.v): with `c` and without it the outcome is the same, wherever it is put. Positive parts from the cleaning lemmas (C08, C17, C20, C22, C38) and, for Soundex letters, by induction over the loop for any mapping; the exactness of every set by contexts evaluated for all 76 signs and 52 letters, for any Unicode tables.
* **C91 small and capital letters in every script** — about the concrete tables of UnicodeReal.v (Unicode 14, generated from Python's unicodedata). Every encoder is a function of the capitals, of the capitals of the letters, or of the small letters of the text; that these do not change is checked for the ~1700 characters the case mappings change and is trivial for all others (`upper_by_table`, `lower_by_table`), and lifts to texts because the mappings work character by character, the sigma apart. The exceptional characters are listed in Spec_case.v.
* **C92 neighbouring letters that may be swapped** — letters that may be exchanged (C89) may be swapped (xy, yy, yx), a letter that may be left out (C90) commutes with all others; the additional pairs are E and I in Metaphone (an argument about what each letter gives from the two letters after it and the one before, on the definition of C68) and AO, EI in Caverphone (each pass keeps two neighbours and treats what stands around them alike; the passes for TIO and TIA, CI and CE are taken together). That no other pair may be swapped is a computation over all pairs with a few texts around them, lifted by `shows_order`.
* **C93 a spelling mistake moves the code a bounded way** — mistakes are an inductive relation on texts (edit distance), closed under sequences, so one mistake is enough. Refined Soundex and Cologne: the code is a list of per-letter codes followed by the dropping of repetitions; the two lists differ in a stretch of bounded length, and so do the reduced ones. Metaphone: the definition of C68 as a function that reads from left to right with the number of letters still to be passed over; the two readings agree before the letter before the mistake and meet again at most two letters behind it; the beginning and its special groups are treated apart. That no smaller number will do: pairs of names, and the number of characters of a kind as a lower bound for the number of mistakes. Double Metaphone: the codes of (GN)^n and (JA)^n with and without a W, by induction on n over the definition of C69.
* **C94 how long a code can be** — Metaphone by induction over the reading from left to right (two letters are written only for X, which is not written again after X and not at the beginning), NYSIIS over its definition (no table entry writes more than it reads), Cologne and Refined Soundex from C10 and C12. Double Metaphone over its rule table (C69): how many letters each result needs is computed from the conditions on the way to it, the bound is checked for every result of the table but those of X, which is followed by no X. That the bounds are reached: the families (LX)^n, X^n, (BA)^n, (BL)^n and K(XZ)^n, by induction on n.
* **C95 the code of a code** — the forms of all codes (C81) put through the definitions of the encoders (C06, C10, C29, C38, C66, C88): the codes of the digit encoders lose their digits; halving the runs of a word of at most six characters a fourth time changes nothing (cases over which neighbours are equal). NYSIIS: a code has no H after C or P, no E or V pair and no vowel but A after its first letter, so that every step of the loop keeps the letter or writes the one before, which is then dropped; MAC and PF in front make a doubled letter. (ND)^n loses one ND a time. Caverphone: followed pass by pass over a code, which letters can still occur (`after`, sound for every text), so that all passes but the first-letter rules and the collapsing of runs are absent; for Caverphone 2 the passes for w, r and l are followed on a text cut into front, body, heard letter and final vowel. The exact code forms are those of C81. Metaphone: on a text with no vowel after its first letter and without C, D, G, Q, V and Z the table reads every letter alone; the second code has no H, W or Y, the third no X or 0, the fourth no doubled letter, the fifth no KN or PN in front and no MB at the end, and such a code is its own. Double Metaphone halves K^(2m) (a derivation of its definition, C69). The primary code: all outcomes of the rules whose conditions can hold in a text of given letters (computed from the table, sound for every text); the second code has no H, the third no X or 0, and from there every letter gives itself or nothing.
* **C96 White space of every script** — a literal list of the twenty-five characters; `is_whitespace` of the real tables is
* **C97 names inside longer names** — Refined Soundex from its definition on every text (C10): collapsing runs after joining is the same as joining collapsed parts and collapsing again (induction), and a text fails exactly when a part does. For each other encoder one pair of names for the front and one for the end, computed by the model.
* **C98 letters with accents** — the cleaned texts of the two letters are the same (computed), and cleaning distributes over joining texts; for ß the cleaned text is SS and C85 (doubled letters) removes one S; Þ and the German umlauts go through C89 (exchangeable letters). Exactness: for each of the 62 letters and 26 capitals not in the table one of a few contexts, computed by the model, tells them apart.
* **C99 renaming the codes of a mapping** — induction over the two loops: the loop on the renamed mapping gives the renamed code (comparisons of codes keep their outcome because the renaming is injective on the mapping, 0 and -). Two mappings with the same groups are each the renaming of the other by first occurrence; codes consist of the mapping's characters (and filling zeros), so their equality and common positions are kept. Converse (Refined): texts A x and A y.
  membership in it (proved over the ranges). Daitch-Mokotoff: characters that no rule mentions are interchangeable when they
  have the same number of bytes (simulation over the scan), so the characters of a finite list stand for all of Unicode and the
  necessity is a computation over that list; Beider-Morse: lowercasing and splitting around a white character.
