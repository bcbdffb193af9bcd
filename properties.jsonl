{"id": "C01", "title": "is_encoded_equals is equality of codes", "statement": "For an encoder that does not override is_encoded_equals, is_encoded_equals(a,b) returns true exactly when encode(a) and encode(b) return the same string, and panics exactly when one of the two encodings panics; hence on inputs on which encode returns it is reflexive, symmetric and transitive.", "quantifier": "every encoder, every pair / triple of input strings", "why_tests_cant": "relational property over pairs and triples of arbitrary strings and over every implementation of the trait", "anchors": ["src/lib.rs: Encoder::is_encoded_equals"]}
{"id": "C02", "title": "difference counts equal positions", "statement": "difference(a,b) is the number of positions at which the two codes carry the same character; it is symmetric, never exceeds the length of either code, is 0 when one code is empty, and for two codes of equal length n it equals n exactly when the codes are identical. For Soundex it is at most 4 and it is 4 exactly when the two (non empty) codes are equal. With three texts: the differences of the first two and of the last two together are at most the length of the middle one's code plus the difference of the first and the third.", "quantifier": "every encoder implementing SoundexCommons, every pair of strings", "why_tests_cant": "unbounded pairs of inputs; the iff direction needs every pair of distinct codes", "anchors": ["src/lib.rs: SoundexCommons::difference"]}
{"id": "C03", "title": "CharSequence slices by character", "statement": "For every string s and all indices, s[a..b] is the substring of characters a..b-1 (clamped to the string, empty when a >= b or a >= number of characters), s[a..], s[..b], s[..], s[a..=b], s[..=b] agree with it; len() is the number of characters; s[..k] followed by s[k..] is s. Slicing never panics on a non character boundary. A sequence that was read back from a serialised form may state any length: it cuts s[a..] and s[..] there, the other ranges do not look at it, and nothing panics.", "quantifier": "every Unicode string, every pair of usize indices (for inclusive ranges, end < usize::MAX)", "why_tests_cant": "all strings over all UTF-8 widths and all index pairs", "anchors": ["src/helper.rs: CharSequence, Index<Range>, Index<RangeFrom>, Index<RangeTo>, Index<RangeFull>, Index<RangeInclusive>, Index<RangeToInclusive>"]}
{"id": "C04", "title": "CharSequence inclusive range at usize::MAX", "statement": "s[a..=usize::MAX] and s[..=usize::MAX] do not return the tail of the string: with overflow checks they panic, and without them they return the empty string, for every s and a.", "quantifier": "every string and start index, both overflow-check build profiles", "why_tests_cant": "the failing index is a single value of a 2^64 domain, and the claim ranges over every string", "anchors": ["src/helper.rs: Index<RangeInclusive>, Index<RangeToInclusive>"]}
{"id": "C05", "title": "Soundex code format", "statement": "With the default mapping, whenever encode returns, the result is the empty string exactly when the input has no alphabetic character, and otherwise it is exactly 4 characters: the uppercased first letter followed by three digits 0-6.", "quantifier": "every Unicode string", "why_tests_cant": "format must hold for every string, including those with every mixture of letters, digits, punctuation", "anchors": ["src/soundex.rs: Soundex::encode", "src/lib.rs: SoundexUtils::soundex_clean"]}
{"id": "C06", "title": "Soundex computes the American Soundex definition", "statement": "On every string whose letters are ASCII, encode returns the code given by the textbook definition: keep the first letter, replace the others by the digit of their class, H and W are transparent, adjacent letters of equal digit (also with the first letter) count once, vowels separate, zeros are dropped, pad/truncate to three digits. The simplified and genealogy variants follow the same definition with their own table and with H/W treatment fixed by how the mapping was built. More generally, on any text and any table the outcome is determined by the uppercased alphabetic characters: if all are A-Z the code is the definition's code of them (so a sharp s counts as SS), and a letter outside A-Z panics unless three digits precede it, in which case the code is that of the letters before it.", "quantifier": "every string whose alphabetic characters are ASCII letters, every mapping of 26 characters", "why_tests_cant": "functional equivalence with an independent definition for all strings", "anchors": ["src/soundex.rs: Soundex::encode, get_mapping_code, From/TryFrom impls"]}
{"id": "C07", "title": "Soundex totality boundary", "statement": "Soundex::encode (default table) returns whenever every alphabetic character of the input is an ASCII letter. On an arbitrary string it panics exactly when, in the cleaned uppercase name, the first character or one of the following characters examined before the code is full is not an ASCII letter; in particular it is not total, and every name whose first letter is a non-ASCII letter panics.", "quantifier": "every Unicode string; both directions of the boundary", "why_tests_cant": "absence of panics over an infinite input set", "anchors": ["src/soundex.rs: Soundex::encode, get_mapping_code"]}
{"id": "C08", "title": "Soundex ignores case and non-letters", "statement": "Deleting or inserting non-alphabetic characters anywhere, or changing the ASCII case of letters, does not change the result of Soundex.encode nor RefinedSoundex.encode.", "quantifier": "every string, every insertion/deletion of non-letters, every case change", "why_tests_cant": "relational property over pairs of strings", "anchors": ["src/lib.rs: SoundexUtils::soundex_clean", "src/soundex.rs", "src/refined_soundex.rs"]}
{"id": "C09", "title": "Soundex construction from custom mappings", "statement": "TryFrom<&str>/TryFrom<String> succeed exactly when the given mapping has 26 characters (otherwise the error returns the characters); From<&str>-style constructors keep the mapping, and H/W are special-cased exactly when the mapping contains no '-' placeholder.", "quantifier": "every mapping string", "why_tests_cant": "all candidate mapping strings", "anchors": ["src/soundex.rs: TryFrom impls, From<[char;26]>", "src/refined_soundex.rs: TryFrom impls"]}
{"id": "C10", "title": "RefinedSoundex definition and format", "statement": "On every string whose letters are ASCII, RefinedSoundex.encode is the uppercased first letter followed by the digits of all letters (first included) with runs of equal digits collapsed; it is empty exactly when there is no letter; no two adjacent digits are equal; it is at most one character longer than the number of letters. The same holds on any text whose uppercased alphabetic characters are all A-Z.", "quantifier": "every string whose alphabetic characters are ASCII letters; every 26 character mapping", "why_tests_cant": "functional equivalence over all strings", "anchors": ["src/refined_soundex.rs: RefinedSoundex::encode, get_mapping_code"]}
{"id": "C11", "title": "RefinedSoundex totality boundary", "statement": "RefinedSoundex::encode panics exactly when the cleaned uppercase name contains a character that is not an ASCII letter; so it returns on every string whose letters are ASCII and is not total.", "quantifier": "every string", "why_tests_cant": "absence of panics over an infinite input set", "anchors": ["src/refined_soundex.rs"]}
{"id": "C12", "title": "Cologne code alphabet and totality", "statement": "Cologne.encode returns (never panics) on every Unicode string; the result contains only the digits 0-8, '0' occurs only as first character, and the result has at most twice as many digits as the uppercased input has characters.", "quantifier": "every Unicode string", "why_tests_cant": "invariant of a stateful scan over arbitrary strings", "anchors": ["src/cologne.rs: Cologne::encode, CologneOutput"]}
{"id": "C13", "title": "Cologne computes its letter table", "statement": "On every string Cologne.encode equals a declarative definition: each letter is coded from itself, its previous letter and its next character by the Kölner Phonetik table, then consecutive repetitions produced by one code are collapsed and zeros other than the leading one dropped.", "quantifier": "every Unicode string", "why_tests_cant": "functional equivalence over all strings", "anchors": ["src/cologne.rs: Cologne::encode"]}
{"id": "C14", "title": "Cologne invariances", "statement": "Changing the ASCII case of letters, replacing an umlaut by its base vowel, or replacing sharp s by s does not change the Cologne code. An ASCII non-letter at the start, at the end, or next to another ASCII non-letter can be removed without changing the code; elsewhere it cannot in general (P-H versus PH), so non-letters are not ignored.", "quantifier": "every string", "why_tests_cant": "relational property over pairs of strings", "anchors": ["src/cologne.rs"]}
{"id": "C15", "title": "Caverphone code format", "statement": "Whenever every lowercase letter of the lowercased input is an ASCII letter (in particular on every ASCII string), Caverphone1::encode returns exactly 6 characters and Caverphone2::encode exactly 10 characters: symbols of the code alphabet followed by padding '1's that occur only at the end.", "quantifier": "every string whose lowercased letters are ASCII", "why_tests_cant": "format after ~60 successive rewriting passes must hold for every string", "anchors": ["src/caverphone.rs: Caverphone1::encode, Caverphone2::encode"]}
{"id": "C16", "title": "Caverphone totality boundary", "statement": "Whenever Caverphone1/2::encode return, the code is exactly 6 / 10 bytes long; encode always terminates; it returns on ASCII input and panics on some non-ASCII input (truncation inside a character), so it is not total.", "quantifier": "every string", "why_tests_cant": "absence of panics over an infinite input set", "anchors": ["src/caverphone.rs"]}
{"id": "C17", "title": "Caverphone ignores case and non-letters", "statement": "Changing the case of ASCII letters or inserting/deleting characters that are not lowercase after lowercasing does not change the Caverphone codes.", "quantifier": "every string, every insertion/deletion", "why_tests_cant": "relational property over pairs of strings", "anchors": ["src/caverphone.rs", "src/helper.rs: remove_all_non_letter"]}
{"id": "C18", "title": "Nysiis strict is truncation", "statement": "On every input on which both modes return, strict Nysiis returns the first 6 bytes of the non-strict key (the first 6 characters when letters are ASCII), hence never more than 6.", "quantifier": "every ASCII string", "why_tests_cant": "relation between two configurations over all strings", "anchors": ["src/nysiis.rs: Nysiis::encode"]}
{"id": "C19", "title": "Nysiis key shape", "statement": "On every string the non-strict Nysiis key contains after its first character none of E I O U Q Z M K, has no two equal adjacent characters except possibly a final YY, and never ends in A unless it is exactly A; it is made of uppercase A-Z when the input letters are ASCII; the no-repetition rule does fail for YY, and the key can be empty although the input has letters (As).", "quantifier": "every Unicode string", "why_tests_cant": "invariant of a rewriting scan for every string", "anchors": ["src/nysiis.rs: Nysiis::encode, transcode_remaining"]}
{"id": "C20", "title": "Nysiis totality boundary", "statement": "Non-strict Nysiis::encode returns on every Unicode string; strict mode returns on every string whose letters are ASCII and panics on some others. Both modes ignore ASCII case and non-letters.", "quantifier": "every string, both modes", "why_tests_cant": "absence of panics over an infinite input set", "anchors": ["src/nysiis.rs"]}
{"id": "C21", "title": "Phonex code length and format", "statement": "For max_code_length >= 2 and every string whose letters are ASCII, the Phonex code has exactly max_code_length characters: all 0s, or one of A B C D F G H L M N R S T W X, then digits 1-6 with no two equal adjacent ones, then padding 0s. For max_code_length >= 4 the code has exactly max_code_length bytes on every string. For max_code_length 0 the code is empty; for max_code_length 1 the limit is exceeded, by an unbounded amount.", "quantifier": "every ASCII string, every max_code_length", "why_tests_cant": "bound must hold for all strings and all lengths", "anchors": ["src/phonex.rs: Phonex::encode"]}
{"id": "C22", "title": "Phonex totality and invariances", "statement": "Phonex::encode returns on every Unicode string and every max_code_length; it ignores non-letters and ASCII case; trailing S's are ignored.", "quantifier": "every Unicode string, every max_code_length", "why_tests_cant": "absence of panics / relational over all strings", "anchors": ["src/phonex.rs"]}
{"id": "C23", "title": "Metaphone maximum length is truncation", "statement": "Unless the uppercased input is a single byte, the Metaphone code produced with max_code_length = Some(n) is the first n characters of the code produced with no limit, whenever the latter returns (always, on ASCII input), and of the code produced with any larger limit; it never exceeds n characters. A one-character input ignores the limit.", "quantifier": "every Unicode string whose unlimited code exists, every n", "why_tests_cant": "relates two runs that stop at different moments of a scan, for all strings and all n", "anchors": ["src/metaphone.rs: Metaphone::encode"]}
{"id": "C24", "title": "Metaphone alphabet, case and totality", "statement": "Metaphone::encode returns on every ASCII string and ignores ASCII case. For inputs of more than one byte the code contains only B F H J K L M N P R S T W X Y 0, and in first position possibly a vowel A E I O U; its length is at most twice the number of input characters.", "quantifier": "every ASCII string", "why_tests_cant": "absence of panics and an output invariant over all strings", "anchors": ["src/metaphone.rs"]}
{"id": "C25", "title": "Metaphone non-ASCII boundary", "statement": "Metaphone::encode is not total: a character index is used as a byte index, so it panics on some non-ASCII inputs (for instance Chateau with a circumflex). It panics exactly when, before the code is complete, a C, G, S or T is read whose number among the characters is, as a number of bytes, inside a character, and whose rule compares words there (C unless between S and E, I, Y; G unless first or before H without vowel; enough bytes following). So it returns on every input in whose uppercase every C, G, S and T is preceded by ASCII characters only; each of these four letters does make it panic after a non-ASCII character in some input whose other letters are vowels; and it panics on every input E-acute, S followed by at least one ASCII character.", "quantifier": "every string, every max_code_length; existence for the refutation", "why_tests_cant": "a witness of non-totality of the function; recorded with the totality theorem", "anchors": ["src/metaphone.rs: region_match, is_last_char"]}
{"id": "C26", "title": "DoubleMetaphone maximum length is truncation", "statement": "For every max_code_length n, the primary and alternate codes of double_metaphone are at most n characters and are the first n characters of the codes computed with no limit, whenever those exist (always, on ASCII input), and of those computed with any larger limit, even when the unlimited computation panics.", "quantifier": "every string, every n", "why_tests_cant": "relates runs which stop at different points", "anchors": ["src/double_metaphone.rs: DoubleMetaphone::double_metaphone, DoubleMetaphoneResult"]}
{"id": "C27", "title": "DoubleMetaphone totality and alphabet", "statement": "double_metaphone returns on every ASCII string. Whenever it returns, the primary code is made of A F H J K L M N P R S T X 0 with A in first position only; the alternate code likewise except that it never contains 0 and may end in a space; both are at most twice as long as the trimmed uppercased input. It panics on some non-ASCII inputs, but never when the ASCII letters of the uppercased input are all among A E I O U Y B F K N Q V; each of the other letters makes it panic in some input whose other ASCII letters are among those. A panic needs one of those other letters with a non-ASCII character nearby: among the four before it, the four after it, the first six of the text (for C G J T W) or the last two (for L); each of these distances is reached. A text that makes it panic under some code length makes it panic under every greater one and without a limit.", "quantifier": "every string, every max_code_length", "why_tests_cant": "absence of panics over an infinite input set in a 1000-line state machine", "anchors": ["src/double_metaphone.rs"]}
{"id": "C28", "title": "DoubleMetaphone invariances and equality", "statement": "double_metaphone ignores leading/trailing whitespace and ASCII case; encode is the primary code; is_double_metaphone_equal (primary or alternate) is equality of the selected codes, therefore an equivalence relation for fixed alternate flag.", "quantifier": "every pair of ASCII strings", "why_tests_cant": "relational", "anchors": ["src/double_metaphone.rs"]}
{"id": "C29", "title": "MatchRatingApproach code format", "statement": "On ASCII input the Match Rating code equals its published definition (uppercase, remove noise characters and accents, drop vowels except a leading one, collapse doubled consonants, keep first three and last three); the code is empty for blank and one-character input; it is never longer than 6 bytes on any string; on ASCII input it contains no vowel except in first position, no lowercase letter and no noise character; ASCII case and noise characters are ignored.", "quantifier": "every string (ASCII where stated)", "why_tests_cant": "format invariant over all strings", "anchors": ["src/match_rating_approach.rs: encode"]}
{"id": "C30", "title": "MatchRatingApproach comparison", "statement": "With overflow checks is_encoded_equals is symmetric. It is false when an argument is blank or a single character, true for a name compared with itself or with a name equal up to ASCII case; for two different names whose codes have the same length n it is true exactly when 6 - (n - number of agreeing positions) reaches the published threshold of 2n. It is not transitive. Two names that are not blank and have the same non-empty code are equal, in every script; so are those that differ in the case of ASCII letters only.", "quantifier": "every pair/triple of strings", "why_tests_cant": "relational", "anchors": ["src/match_rating_approach.rs: is_encoded_equals"]}
{"id": "C31", "title": "MatchRatingApproach totality boundary", "statement": "encode returns on every ASCII string and panics on some non-ASCII strings. is_encoded_equals returns on every pair of ASCII names each containing a non-noise character; with overflow checks it panics on some ASCII pairs made of noise only, and without overflow checks it is not even symmetric ('ab','--').", "quantifier": "every ASCII string; both build profiles", "why_tests_cant": "absence of panics over an infinite input set; profile dependent", "anchors": ["src/match_rating_approach.rs"]}
{"id": "C32", "title": "Rule-file tokens round trip", "statement": "The rule-file line parsers accept exactly the lines of the documented shapes and return their fields: quoted quadruplets, folding lines, include lines, language declarations and language-rule lines. Consequently parsing inverts printing for every token text without quotes, a line has only one reading, and on success a parser consumes at least one character and leaves a suffix of its input. An escaped quote keeps its backslash in the value, a token made of one backslash cannot be written, and a quoted token may contain a line feed.", "quantifier": "every token text, every rest of file", "why_tests_cant": "all token contents and all remaining texts", "anchors": ["src/rules_parser.rs"]}
{"id": "C33", "title": "Comment parsing", "statement": "The line-end parser accepts exactly: optional blanks, an optional // comment, and the line feed (or end of input), which it consumes; it never consumes past the first line feed. A multi-line comment consumes through its first closing marker and the following line end, and reports one more than the number of line feeds in its text.", "quantifier": "every comment text and every rest of input", "why_tests_cant": "all comment texts", "anchors": ["src/rules_parser.rs: end_of_line, multiline_comment"]}
{"id": "C34", "title": "Parse errors point at the offending text", "statement": "When the Daitch-Mokotoff builder fails with a ParseError, line_content is the first line of the unread remainder and line_number is the number of lines it believes it has read plus one; this exceeds the true line number by exactly the number of multi-line comments before it (when no quoted token read before it contains a line feed).", "quantifier": "every rule text", "why_tests_cant": "all malformed rule files", "anchors": ["src/lib.rs: build_error", "src/daitch_mokotoff.rs: parse_rules", "src/beider_morse/rule.rs", "src/beider_morse/lang.rs"]}
{"id": "C35", "title": "Daitch-Mokotoff code format", "statement": "With ASCII replacements, every code produced by soundex (after splitting on '|') has exactly 6 characters and the list of codes is never empty; with digit replacements every code is 6 digits, padded with 0.", "quantifier": "every input string, every rule table with ASCII replacements", "why_tests_cant": "format invariant over all strings and all rule tables", "anchors": ["src/daitch_mokotoff.rs: soundex, inner_soundex, Branch"]}
{"id": "C36", "title": "Daitch-Mokotoff encode versus soundex", "statement": "encode returns a single code: the first of the codes that soundex lists, for every input; with branching disabled exactly one code is computed.", "quantifier": "every input string and rule table", "why_tests_cant": "relates two runs (branching / non branching) over all strings", "anchors": ["src/daitch_mokotoff.rs: encode, soundex"]}
{"id": "C37", "title": "Daitch-Mokotoff picks the longest matching rule", "statement": "At every position the Daitch-Mokotoff rule applied is, among the rules whose pattern is a prefix of the remaining cleaned input, the one with the longest pattern (in bytes), the earliest in the file among equals; there is at most one such rule, and if patterns are distinct the order of rules in the file does not change any code.", "quantifier": "every rule file and every input position", "why_tests_cant": "all rule orders and all inputs", "anchors": ["src/daitch_mokotoff.rs: DaitchMokotoffSoundexBuilder::build, inner_soundex"]}
{"id": "C38", "title": "Daitch-Mokotoff cleanup", "statement": "Whitespace anywhere and ASCII case do not influence the Daitch-Mokotoff codes; with folding enabled a character that has a folding entry is equivalent to its replacement; with folding disabled the folding entries have no influence; leading characters for which there is no rule are ignored.", "quantifier": "every string", "why_tests_cant": "relational", "anchors": ["src/daitch_mokotoff.rs: cleanup"]}
{"id": "C39", "title": "Daitch-Mokotoff scanning advances past the matched pattern", "statement": "soundex lists exactly the codes of the selections of one alternative per matched replacement, along the left-to-right segmentation of the cleaned input by the chosen rules (at-start / before-vowel / default replacement chosen by position and next character), joined by '|', in the order in which alternatives are tried, keeping the first of any group of selections the program does not distinguish; encode is the code of the first alternatives. After a match the scan skips as many characters as the pattern has bytes, so an ASCII pattern is skipped exactly and a multi-byte pattern also skips following characters.", "quantifier": "every input string; every rule table whose replacements are ASCII", "why_tests_cant": "all strings and rule tables", "anchors": ["src/daitch_mokotoff.rs: inner_soundex"]}
{"id": "C40", "title": "Daitch-Mokotoff repeated codes", "statement": "If no replacement has alternatives soundex lists one code, equal to encode. A code can be listed twice (witness bdbdbdc), but only when two different selections give it that differ before padding or in their last replacement.", "quantifier": "every input string; every rule table", "why_tests_cant": "invariant over all scans", "anchors": ["src/daitch_mokotoff.rs: inner_soundex, Branch"]}
{"id": "C41", "title": "Daitch-Mokotoff builder terminates and rejects or accepts", "statement": "Reading a Daitch-Mokotoff rule text is deterministic and terminates. build panics exactly when the readable part contains a rule with an empty pattern; otherwise it succeeds exactly when the whole text is readable, and then holds, for every first character, exactly the rules of the file and the folding entries of the file; else it returns a ParseError.", "quantifier": "every rule text", "why_tests_cant": "all rule texts", "anchors": ["src/daitch_mokotoff.rs: build, parse_rules"]}
{"id": "C42", "title": "LanguageSet algebra", "statement": "restrict_to behaves as intersection and merge as union of the denoted language sets (Any denoting all languages): commutative, associative, idempotent, with Any as neutral element of restrict_to; is_empty and is_singleton characterise the denotation; any() returns a member when non empty.", "quantifier": "every pair/triple of language sets", "why_tests_cant": "algebraic laws over all sets", "anchors": ["src/beider_morse/languages.rs: LanguageSet"]}
{"id": "C43", "title": "Phoneme ordering", "statement": "The order used to store phonemes is a total order on phoneme texts (lexicographic), equal exactly when the texts are equal; collections of phonemes hold at most one phoneme per text, in increasing order.", "quantifier": "every pair/triple of phonemes; every sequence of insertions", "why_tests_cant": "order laws over all texts", "anchors": ["src/beider_morse/rule.rs: Phoneme"]}
{"id": "C44", "title": "Optimised context matcher agrees with the regular expression", "statement": "For every context of the shapes the library special-cases (empty, ^, $, anchored and unanchored plain literals, character lists, optionally negated, next to an anchor), the context matcher used instead of a regular expression returns the same boolean as the regular expression, on every text; for every other context the regular expression is used. The contexts with groups, dots and ranges that the library also special-cases are matched literally, which differs from the regular expression (witnesses from the shipped rules).", "quantifier": "every context of those shapes, every text", "why_tests_cant": "all contexts and all texts", "anchors": ["src/beider_morse/regex_optim.rs: OptimizedRegex"]}
{"id": "C45", "title": "Language guessing", "statement": "guess_languages returns a subset of the declared languages, never an empty set (falls back to any), exactly those left after applying accept and reject rules in file order.", "quantifier": "every word and every language-rule list", "why_tests_cant": "all words and rule lists", "anchors": ["src/beider_morse/lang.rs: Lang::guess_languages"]}
{"id": "C46", "title": "Beider-Morse phoneme limit", "statement": "While applying the main rules the number of phonemes never exceeds max_phonemes (when >= 1). The final rules are not subject to this limit: the number of alternatives in a code can exceed it, but never exceeds its cube; with max_phonemes = 1 there is at most one alternative.", "quantifier": "every rule table, every word, every limit", "why_tests_cant": "invariant over all rule applications", "anchors": ["src/beider_morse/engine.rs: PhonemeBuilder::apply, PhoneticEngine::encode_with_language_set"]}
{"id": "C47", "title": "Beider-Morse alternatives are sorted and distinct", "statement": "The code of a word is a '|'-separated list of pairwise distinct alternatives in strictly increasing order (provided no rule produces '|').", "quantifier": "every word and configuration", "why_tests_cant": "invariant over all runs", "anchors": ["src/beider_morse/engine.rs", "src/beider_morse/rule.rs"]}
{"id": "C48", "title": "Beider-Morse computes its specification and terminates", "statement": "For an engine whose tables were built from rule files, encode and encode_with_languages always terminate, and return exactly the code described by a declarative specification (words, particles, chosen rules, phonemes, final rules); they panic exactly when that specification gives no code, i.e. when the rules of the language in use are missing. The specified code is unique.", "quantifier": "every input string and rule table", "why_tests_cant": "termination", "anchors": ["src/beider_morse/engine.rs"]}
{"id": "C49", "title": "Beider-Morse name prefixes", "statement": "With the generic name type, a name that (lowercased, with hyphens as spaces, but not trimmed) starts with d' or with a particle followed by a space is encoded as (encoding of the remainder)-(encoding of the combination) for every remainder; the other name types never do this. White space (or a hyphen, or anything but d or v) in front hides a prefix: the name is then treated word by word.", "quantifier": "every remainder string", "why_tests_cant": "all strings", "anchors": ["src/beider_morse/engine.rs: encode_with_language_set"]}
{"id": "C50", "title": "Beider-Morse word joining", "statement": "With concat disabled, a name of several words is encoded as the '-'-join of the encodings of its words, for every name type; a single word is encoded by its phonemes. With concat enabled the name is encoded as one text: its words joined by spaces after the name type's treatment (Sephardic: keep what follows the last quote and drop particles; Ashkenazi: drop particles; generic: nothing).", "quantifier": "every word list", "why_tests_cant": "all strings", "anchors": ["src/beider_morse/engine.rs: encode_with_language_set"]}
{"id": "C51", "title": "Beider-Morse rule availability", "statement": "ConfigFiles::new accepts a directory exactly when it is complete: every name type has a readable language list and language rules and loadable rule files for each declared language and rule type. With an accepted configuration build succeeds, and encode returns on every string provided the language 'any' is declared for the name type; a language set reduced to an undeclared language panics. The default configuration encodes every string.", "quantifier": "every directory, builder setting, and string", "why_tests_cant": "all configurations", "anchors": ["src/beider_morse/engine.rs", "src/beider_morse/rule.rs: Rules"]}
{"id": "C52", "title": "Name and rule type text forms", "statement": "NameType: FromStr accepts exactly the strings produced by Display and returns that name type, and rejects every other string with an error carrying the string; the same holds for the rule type; the file-name schemes for languages and rules are injective, so distinct (name type, rule type, language) never collide.", "quantifier": "every string", "why_tests_cant": "rejecting all other strings is an infinite claim", "anchors": ["src/beider_morse/mod.rs: NameType, RuleType"]}
{"id": "C53", "title": "Beider-Morse ignores the given languages for composite names", "statement": "For a name with a generic prefix, or a name of several words with concat disabled, encode_with_languages returns the same code whatever language set is given (as long as its rules exist): the parts are encoded with their own guessed languages.", "quantifier": "every name, every pair of language sets", "why_tests_cant": "relational property over all names and language sets", "anchors": ["src/beider_morse/engine.rs: PhoneticEngine::encode_with_language_set"]}
{"id": "C54", "title": "Beider-Morse rule files and includes", "statement": "Loading a rule file yields exactly the outcome described by a declarative reading of the file and of the files it includes: the table of its rules grouped by first character in file order, or the first error. An #include replaces the rules of every first character the included file has rules for, and keeps the others. Two readings of the same file give the same table.", "quantifier": "every set of rule files", "why_tests_cant": "all file contents and include graphs", "anchors": ["src/beider_morse/rule.rs: parse_rule, Rules"]}
{"id": "C55", "title": "Beider-Morse include cycles", "statement": "If rule files include each other in a cycle before any failing line, loading never ends: no outcome is described by the reading of the files and every bound on the depth of inclusion is exceeded.", "quantifier": "every set of rule files with such a cycle", "why_tests_cant": "non-termination on every cyclic configuration", "anchors": ["src/beider_morse/rule.rs: parse_rule"]}
{"id": "C56", "title": "Beider-Morse missing language list", "statement": "ConfigFiles::new panics (it does not return an error) when the directory has no <name type>_languages.txt for some name type while the rest is readable.", "quantifier": "every such directory", "why_tests_cant": "every directory", "anchors": ["src/beider_morse/lang.rs, src/beider_morse/languages.rs, src/beider_morse/mod.rs: ConfigFiles::new"]}
{"id": "C57", "title": "Soundex and RefinedSoundex are streaming", "statement": "Appending characters to a name whose Soundex code is already full does not change the code; the RefinedSoundex code of a name is a prefix of the code of every extension of that name. Both hold for every mapping and for texts of any script: a Soundex code that does not end in a filling zero stays even if the continuation contains letters that would make a shorter code panic, any other keeps all but its filling zeros, and if the longer name has a RefinedSoundex code so has the shorter one.", "quantifier": "every name and every continuation", "why_tests_cant": "relational property over all extensions", "anchors": ["src/soundex.rs: Soundex::encode", "src/refined_soundex.rs: RefinedSoundex::encode"]}
{"id": "C58", "title": "Beider-Morse 'de la' is never recognised", "statement": "A generic name starting with 'de la ' is always treated with the particle 'de': the combination is 'dela ...' and the remainder 'la ...'.", "quantifier": "every remainder", "why_tests_cant": "every remainder string", "anchors": ["src/beider_morse/engine.rs: encode_with_language_set"]}
{"id": "C59", "title": "Metaphone silent first letters", "statement": "A name starting with KN, GN, PN, AE or WR followed by an ASCII character has the same code as the name without its first letter.", "quantifier": "every continuation, every limit", "why_tests_cant": "relational over all continuations", "anchors": ["src/metaphone.rs: Metaphone::encode"]}
{"id": "C60", "title": "DoubleMetaphone VAN/VON test", "statement": "The test for the prefixes 'VAN ' and 'VON ' never succeeds, for any input: the four-character window is compared with three-character texts. Consequently every ASCII name starting with 'Van Ch' or 'Von Ch' whose next letter is not A, I, T or S gets the primary code FNX... and the alternate code FNK..., instead of K in both.", "quantifier": "every input", "why_tests_cant": "dead code is a claim about every input", "anchors": ["src/double_metaphone.rs: handle_g / handle_ch helpers"]}
{"id": "C61", "title": "Beider-Morse phonemes come from the rules", "statement": "Every character of a phoneme of a word comes from a phoneme of the rules used; a rule without contexts hides every later rule whose pattern extends its own; text without any applicable rule has an empty code. A character stands in a code only if it is a separator, or the rules of the last step write it, or an earlier step's rules write it and no later step has a rule that rewrites that character in every context.", "quantifier": "every rule table and word", "why_tests_cant": "invariant over all runs", "anchors": ["src/beider_morse/engine.rs: RulesApplication, PhonemeBuilder"]}
{"id": "C62", "title": "Beider-Morse phoneme expressions", "statement": "A phoneme expression is accepted exactly when it is a well-formed phoneme (text with an optional [lang+lang] list) or a parenthesised '|'-separated list of them, and then gives exactly these phonemes; otherwise the error message is determined by the first malformed part.", "quantifier": "every expression text", "why_tests_cant": "grammar equivalence over all strings", "anchors": ["src/beider_morse/rule.rs: PhonemeList/Phoneme parsing"]}
{"id": "C63", "title": "Beider-Morse final rules merge languages", "statement": "When two phonemes are rewritten by final rules to the same text, the languages of the resulting phoneme are those of the first rewritten phoneme united with the languages, before the rewriting, of the phonemes the later ones came from, which need not be the union of the rewritten phonemes' languages.", "quantifier": "every final rule application, with a witness for the divergence", "why_tests_cant": "the claim concerns all phoneme sets", "anchors": ["src/beider_morse/engine.rs: apply_final_rules"]}
{"id": "C64", "title": "Beider-Morse case and layout invariance", "statement": "Names equal after lowercasing have the same code; the code depends only on the name lowercased, with hyphens as spaces; the amount and kind of whitespace between words is irrelevant for names without a generic prefix. A Greek capital sigma that ends a word (cased letter before it, none after it, skipping characters case ignores) is read as the final small sigma, any other one as the ordinary small sigma.", "quantifier": "every pair of names", "why_tests_cant": "relational", "anchors": ["src/beider_morse/engine.rs: encode_with_language_set"]}
{"id": "C65", "title": "Nysiis computes its published rules", "statement": "For every text, the NYSIIS key is the one produced from the uppercase of its letters by the published rules (initial and final transliterations, then one left-to-right scan with its contextual rules, then the treatment of the end), and that key is unique. In strict mode the code is the key if it has at most six bytes and otherwise its first six bytes; encode panics exactly when a character of the key lies across the sixth byte. For ASCII letters that is the first six letters.", "quantifier": "every input, strict and non-strict", "why_tests_cant": "a rule system over all words", "anchors": ["src/nysiis.rs: Nysiis::encode, transcode_remaining"]}
{"id": "C66", "title": "Phonex computes its published rules", "statement": "For every text and every maximal length, the Phonex code is the one produced from the uppercase of the letters by the published rules (trailing S, initial rewriting, contextual digits, no repeated digit), and that code is unique; it is cut or filled up with zeros to the maximal length in bytes, except that a first letter longer than the maximal length, or an initial MD, MG, ND or NG with maximal length 1, makes the code uncut.", "quantifier": "every input and maximal length", "why_tests_cant": "a rule system over all words", "anchors": ["src/phonex.rs: Phonex::encode, preprocess, transcode"]}
{"id": "C67", "title": "Caverphone computes its published passes", "statement": "For every text whose lowercase letters are ASCII the Caverphone 1 (2) code is the result of the published sequence of rewriting passes on those letters, cut or filled with '1' to 6 (10) letters. For every text the passes have exactly one result, the code is its first 6 (10) bytes when filled up, and the encoder panics exactly when that byte position is inside a character.", "quantifier": "every input", "why_tests_cant": "a sequence of rewriting passes over all words", "anchors": ["src/caverphone.rs: Caverphone1::encode, Caverphone2::encode"]}
{"id": "C68", "title": "Metaphone computes its published rules", "statement": "For every ASCII text and every maximal length, the Metaphone code is the one produced by the published rule table (a silent or replaced beginning, then for every letter the symbol its neighbours determine, skipped doubled letters), cut at the maximal length; a word of one letter is its own code. Each word has exactly one such code. For every other text, encode returns a code exactly when it does not panic (C25) and the code is the one produced by the same rules, letters being looked at by characters but words (CIA, GN, SH, TH, ...) and the length being compared by bytes.", "quantifier": "every input and maximal length", "why_tests_cant": "a contextual rule system over all words", "anchors": ["src/metaphone.rs: Metaphone::encode"]}
{"id": "C69", "title": "Double Metaphone computes its rule table", "statement": "For every ASCII text and every maximal length, the primary and the alternate code are the ones produced by the contextual rule table read from left to right on the text without surrounding white space in uppercase, skipping the silent first letter of GN, KN, PN, WR and PS, and cut at the maximal length. Each text has exactly one such pair. For every other text, if double_metaphone returns, the codes are those of the same table (where C-cedilla sounds S and N-tilde sounds N), with positions measured in bytes and skipped letters counted in characters. It panics exactly when, reading the uppercase text with those rules, it reaches (before both codes have their full length) a letter for which one of the comparisons it makes with the neighbouring bytes, in their order, begins or ends in the middle of a character; in every other case it returns, and returns the codes of the rules.", "quantifier": "every input and maximal length", "why_tests_cant": "a contextual rule system over all words", "anchors": ["src/double_metaphone.rs: DoubleMetaphone::double_metaphone"]}
{"id": "C70", "title": "Beider-Morse files: what an error says", "statement": "When a list of languages, a file of language rules or a file of phonetic rules cannot be read, the ParseError gives the true line number (counting from 1) of the offending line, provided no quoted part spans several lines. The content is the offending line itself when it cannot be read, but the line after it when a pattern is not a regular expression or an included file is at fault. The file name is that of the file containing the line, except for lists and for unreadable language rules, where none is given. A bad rule or a missing file is reported without position, and where the file is included when it is included.", "quantifier": "every text and every set of files including one another", "why_tests_cant": "all malformed files", "anchors": ["src/beider_morse/languages.rs: parse_liste", "src/beider_morse/lang.rs: parse_lang", "src/beider_morse/rule.rs: parse_rule"]}
{"id": "C71", "title": "ConfigFiles::new reports the first problem", "statement": "If the directory cannot be listed, ConfigFiles::new returns the operating system's error text. Else the entries are examined first, in listing order (an entry that cannot be listed, a list of languages that cannot be read, with the operating system's text, or that is malformed); then the language rules of ash, gen and sep; then the phonetic rule files of each name type in the order approx, exact, rules and by language (whatever the reason why one cannot be read, the error says it cannot be found). ConfigFiles::new reports exactly the first problem in this order (an error, or a panic when a name type has no list of languages or a rule has an empty pattern), and every directory with a first problem is rejected with it.", "quantifier": "every directory listing, whatever each file's content or read error", "why_tests_cant": "all directories and all combinations of problems", "anchors": ["src/beider_morse/mod.rs: ConfigFiles::new", "src/beider_morse/lang.rs: build_langs", "src/beider_morse/rule.rs: build_rules", "src/beider_morse/languages.rs: TryFrom<&PathBuf>"]}
{"id": "C72", "title": "Beider-Morse from the files to the code", "statement": "The encoder built from a configuration directory returns, for every value and language set, exactly the code determined by the files: the name type chooses the ash_/gen_/sep_ files, the rule type chooses the approx or exact final rules, the language set chooses the rules of its only language or of 'any' (which must be declared), the guessed languages come from the _lang file and the declared list, and concat and max_phonemes are those of the last builder calls (by default Generic, Approx, concatenation, 20). The same holds for the rules embedded in the crate, for which no language is ever guessed.", "quantifier": "every directory that ConfigFiles::new accepts, every sequence of builder calls, every value and language set", "why_tests_cant": "end-to-end over all rule files, settings and names", "anchors": ["src/beider_morse/mod.rs: ConfigFiles::new, BeiderMorseBuilder, BeiderMorse::encode, encode_with_languages", "src/beider_morse/engine.rs: PhoneticEngine", "src/beider_morse/rule.rs: Rules, parse_rule"]}
{"id": "C73", "title": "The default encoders", "statement": "Every encoder obtained by Default returns a code for every ASCII text. The default settings are: NYSIIS is strict (the code is the first 6 letters of the code of Nysiis::new(false)); Phonex codes have exactly 4 bytes; the Metaphone code and both Double Metaphone codes are the first 4 letters of the unlimited ones; Soundex is the American Soundex and RefinedSoundex the published table; Daitch-Mokotoff builds from the embedded rules without error and gives 6 digits for every text.", "quantifier": "every text (ASCII for those encoders that may panic on others)", "why_tests_cant": "must hold for every text", "anchors": ["src/nysiis.rs: Default", "src/phonex.rs: Default", "src/metaphone.rs: Default", "src/double_metaphone.rs: Default", "src/soundex.rs: Default", "src/refined_soundex.rs: Default", "src/daitch_mokotoff.rs: Default"]}
{"id": "C74", "title": "The Daitch-Mokotoff builder's settings", "statement": "Whatever the sequence of ascii_folding calls, the last one counts, and folding is on without any; the default builder is the builder with the embedded rules and always succeeds. An encoder with folding gives for a text the codes that the encoder without folding gives for the text whose characters have been lowercased and folded.", "quantifier": "every rule text, sequence of calls and value", "why_tests_cant": "all sequences of calls and all texts", "anchors": ["src/daitch_mokotoff.rs: DaitchMokotoffSoundexBuilder"]}
{"id": "C75", "title": "Limits no memory can hold", "statement": "Phonex::new(n).encode panics for every text exactly when n exceeds isize::MAX (2^63-1), and DoubleMetaphone::new(Some(n)) panics for every text, even the empty one, when n exceeds it; below it they behave as described by the other properties. Metaphone accepts every limit: a limit of at least twice the number of letters is no limit.", "quantifier": "every limit and every text", "why_tests_cant": "all limits", "anchors": ["src/phonex.rs: Phonex::encode", "src/double_metaphone.rs: DoubleMetaphoneResult::new", "src/metaphone.rs: Metaphone::encode"]}
{"id": "C76", "title": "What the printed texts tell", "statement": "The text of a DoubleMetaphoneResult determines both codes, and two results are equal exactly when codes and limits are. The text of a LanguageSet determines it when names contain no comma and are not ANY_LANGUAGE or NO_LANGUAGES. The text of a ParseError determines all its fields when the file name contains no colon and is not 'Unknown' and the description contains no colon, which holds for all errors of the Daitch-Mokotoff builder. Texts of parse errors and of Beider-Morse errors never coincide; Beider-Morse errors other than regular-expression and boolean errors have different texts. The text of the crate's error starts with \"Error parsing rule file \" and continues with exactly the text of the parse error, so it tells as much. The text of a DoubleMetaphoneResult shows exactly the codes that encode and encode_alternate give. The texts of the Beider-Morse errors are the texts of the source, word for word (\"Error : \", then \"Unknown NameType …\", \"Unknown RuleType …\", \"Error reading files …\", \"Wrong file name : …\", \"Wrong phoneme : …\", the regex error itself, \"… is not a boolean\" and \"Ill formated rule : …\").", "quantifier": "every value of these types", "why_tests_cant": "must hold for all values", "anchors": ["src/double_metaphone.rs: DoubleMetaphoneResult", "src/beider_morse/languages.rs: LanguageSet", "src/lib.rs: ParseError, PhoneticError", "src/beider_morse/mod.rs: BMError"]}
{"id": "C77", "title": "Daitch-Mokotoff with any rule file", "statement": "For every rule file the builder accepts, also with replacements that are not ASCII, and every text: soundex panics exactly when some choice of replacements keeps a text with a character across the end of the sixth byte; otherwise it lists, for the choices of replacements in order and without those it cannot tell from an earlier one, the first six bytes of what is kept, filled up with zeros (so each code has exactly six bytes). encode does the same for the first replacements only, so it may return where soundex panics.", "quantifier": "every rule file, every folding flag, every text", "why_tests_cant": "must hold for all rule files and texts", "anchors": ["src/daitch_mokotoff.rs: Branch::process_next_replacement, inner_soundex, soundex, encode"]}
{"id": "C78", "title": "Beider-Morse and the regular-expression engine", "statement": "Beider-Morse depends on the regular-expression engine only through the patterns the rule files give it. If an engine accepts every pattern another accepts and finds it in the same texts, then every directory the other engine's build accepts is accepted with the same tables, guesses the same languages and gives the same codes for every value. The rules in the crate use only plain patterns (literals, '.', groups, alternatives, anchors, plain character lists, at most 200 characters), so the default configuration loads and gives the same tables and codes with every engine that follows their usual meaning, whatever the Unicode version. How deep a bound is put on nested includes does not change the result once it is reached.", "quantifier": "every pair of engines that agree on the accepted patterns, every directory, builder, value and language set", "why_tests_cant": "all engines, directories and values", "anchors": ["src/beider_morse/rule.rs: parse_rule, Rule::pattern_and_context_matches", "src/beider_morse/lang.rs: Lang::guess_languages, parse_lang", "src/beider_morse/mod.rs: IsMatch, ConfigFiles"]}
{"id": "C79", "title": "Serialised forms", "statement": "Every public serialisable value (Soundex, RefinedSoundex, Nysiis, Phonex, Metaphone, DoubleMetaphone, DoubleMetaphoneResult, ParseError, CharSequence, NameType, RuleType, LanguageSet and the encoders without settings) is read back as the same value from what it is written as in a self-describing format such as JSON. A document is accepted exactly when it is an object with each required field exactly once (any order, other members ignored) or an array of exactly the fields in order, with values of the right kind: mappings of exactly 26 one-character texts, sizes below 2^64, null or nothing for an absent optional value. A Metaphone or DoubleMetaphone document without a limit means no limit, not the default limit of 4; the other encoders' settings are required. Name types are written with the names ash, gen and sep that FromStr and Display use. A list of languages is read as a set.", "quantifier": "every value of these types and every document", "why_tests_cant": "all values and all documents", "anchors": ["src/soundex.rs: Soundex", "src/refined_soundex.rs: RefinedSoundex", "src/nysiis.rs: Nysiis", "src/phonex.rs: Phonex", "src/metaphone.rs: Metaphone", "src/double_metaphone.rs: DoubleMetaphone, DoubleMetaphoneResult", "src/lib.rs: ParseError", "src/helper.rs: CharSequence", "src/beider_morse/mod.rs: NameType", "src/beider_morse/rule.rs: RuleType", "src/beider_morse/languages.rs: LanguageSet", "src/caverphone.rs, src/cologne.rs, src/match_rating_approach.rs: derives"]}
{"id": "C80", "title": "Comparisons of the public types", "statement": "The comparisons of the public types are total orders that call two values equal exactly when they are: settings and results compare field by field in order of declaration (a result by primary code, alternate code, limit; a parse error by line, file, line content, description), absent limits and file names before given ones, false before true, variants in order of declaration, sets of languages name by name. Texts compare by their UTF-8 bytes, which is the order of their characters; CharSequences made from texts compare as the texts.", "quantifier": "every pair and triple of values of these types", "why_tests_cant": "all values", "anchors": ["src/soundex.rs: Soundex", "src/double_metaphone.rs: DoubleMetaphoneResult", "src/lib.rs: ParseError", "src/helper.rs: CharSequence", "src/beider_morse/mod.rs: NameType", "src/beider_morse/languages.rs: LanguageSet"]}
{"id": "C81", "title": "Exactly which codes exist", "statement": "A word is the code of some text exactly when it has the form of the algorithm's codes. Soundex: empty, or a letter and up to three digits 1-6 filled with 0 to four (with the genealogy table, without a digit repeated, that of the first letter included). Refined Soundex: empty, or a letter, its digit and digits, none repeated. Cologne: digits 1-8 after an optional 0. Match rating: at most six ASCII characters, none lowercase, white or one of -&'., and vowels only in front. Phonex of length n: zeros, or one of ABCDFGHLMNRSTWX and digits 1-6, none repeated, filled with 0. Metaphone: one character, or consonants and 0 after an optional vowel; Double Metaphone, primary code: consonants and 0 after an optional A; alternate code: consonants, never 0, after an optional A and before an optional space; with a limit, those up to the limit. Caverphone 1: consonants FKLMNPRSTWY after an optional A, filled with 1 to six. Caverphone 2: consonants FKLMNPRSTW between an optional A or Y and an optional A, filled with 1 to ten, where L, R, W and Y are not last unless the code is full. NYSIIS: empty, A, a stem, or a stem ending in H or Y with a Y added; a stem begins with any letter but K and goes on with letters of ABCDFGHJLNPRSTVWXY, none repeated, H only after a vowel and before A or last, W not after a vowel, and does not end in A (strict: the first six characters of such a word). Daitch-Mokotoff with the embedded rules: digits 1 and 3-9 after an optional 0 or 2, filled with 0 to six; every such word is also the answer of encode. So there are exactly 6735 Soundex codes (the empty one counted), 4305 with the genealogy mapping, 2806 Phonex codes of four characters, 2125873 Caverphone 1 codes, 374490 codes of Daitch-Mokotoff with the embedded rules, and with the limit 4, 33321 primary codes of Double Metaphone and 91831 Metaphone codes of ASCII texts.", "quantifier": "every word, and every text (for Match rating and Metaphone ASCII texts, for Phonex, NYSIIS and Caverphone texts whose letters are ASCII)", "why_tests_cant": "both directions range over all words and all texts", "anchors": ["src/soundex.rs: Soundex::encode", "src/refined_soundex.rs: RefinedSoundex::encode", "src/cologne.rs: Cologne::encode", "src/match_rating_approach.rs: MatchRatingApproach::encode", "src/phonex.rs: Phonex::encode", "src/metaphone.rs: Metaphone::encode", "src/double_metaphone.rs: DoubleMetaphone::double_metaphone", "src/caverphone.rs: Caverphone1::encode, Caverphone2::encode", "src/nysiis.rs: Nysiis::encode", "src/daitch_mokotoff.rs: DaitchMokotoffSoundex::soundex, DaitchMokotoffSoundex::encode"]}
{"id": "C82", "title": "How many codes Daitch-Mokotoff answers", "statement": "The answer of soundex lists at least one code and at most as many as there are ways to choose one alternative at each step of the scan. However long the text, it lists at most C times the number of words of up to six characters over the characters of the replacements, where no field of the rule file has more than C alternatives: the work does not grow exponentially with the text. With rules without alternatives there is exactly one code. The embedded rules answer for every text, with at most 2222222 codes.", "quantifier": "every rule file the builder accepts, every folding flag, every text soundex answers for", "why_tests_cant": "the bound is on texts of every length and every rule file; tests see a few names with two or four codes", "anchors": ["src/daitch_mokotoff.rs: DaitchMokotoffSoundex::soundex, DaitchMokotoffSoundexBuilder::build"]}
{"id": "C83", "title": "The alphabet of Beider-Morse codes", "statement": "With the rules in the crate every code consists of the sounds of its name type and rule type and of separators, whatever the value, and each of these characters occurs in the code of some value. Sounds: generic approximate DQSYabdefgijklmnoprstuvwxz, generic exact QSYZabdefghijklmnoprstuvwxz, Ashkenazi approximate DQSYabdfgijklmnoprstuvxz, Ashkenazi exact QSYZabdefghijklmnoprstuvxz, Sephardic approximate DSabdfghiklmnprstuvz, Sephardic exact SZabdefgijklmnoprstuvxz. Separators: the bar between alternatives, for generic names also parentheses and the hyphen of a name with a prefix, and the hyphen between words when they are not concatenated.", "quantifier": "every value, name type, rule type, concatenation flag, maximum number of phonemes, every regular-expression engine that follows the usual meaning of plain patterns", "why_tests_cant": "an alphabet is a statement about all values; tests see a few names", "anchors": ["src/beider_morse/engine.rs: PhoneticEngine::encode", "src/beider_morse/mod.rs: BeiderMorse::encode, BeiderMorseBuilder::build", "rules/bm"]}
{"id": "C84", "title": "The limit and the size of Beider-Morse codes", "statement": "A limit on the number of phonemes that the rules cannot reach changes nothing: if a rule for n characters has at most k^n alternatives of at most l*n characters, for the main, common and final rules, then all limits of at least k1^n, k2^(l1*n) and k3^(l1*l2*n), n the length of the lowercased value, give the same result (or the same panic). So with every directory and for every value all sufficiently large limits agree; with the rules in the crate, all limits of at least 16^n (exact rules: 5^n). No part of a code between separators is longer than l1*l2*l3*n; with the rules in the crate, than 2n (approximate Ashkenazi rules: 4n). Below such a limit, raising it does not only add alternatives: with the rules in the crate the default limit 20 gives xxgeoue an alternative that 21 does not give.", "quantifier": "every directory, setting, languages, limit and value", "why_tests_cant": "the agreement is of all limits above a bound, for values of every length; the lengths are over all values", "anchors": ["src/beider_morse/engine.rs: PhonemeBuilder::apply, PhoneticEngine::encode, apply_final_rules", "src/beider_morse/mod.rs: BeiderMorseBuilder::max_phonemes"]}
{"id": "C85", "title": "Doubled letters", "statement": "Writing a letter twice where a text has it once. Soundex and Refined Soundex, with any mapping: never changes the outcome, for any character whose uppercase is one character (every ASCII letter), anywhere in any text; it may for a ligature that stands for two letters. Cologne: never changes the code for the letters other than C, D, P, T and X (either case, umlauts included), and does for those five somewhere. Metaphone, texts of at least two ASCII characters, any maximal length: never for F, J, L, M, N, Q, R, V, Z, and does for every other letter (limits of 2 or more). Match Rating Approach, texts of at least two characters that are not white: never for A, E, I, O, U, and does for every other letter; one letter alone has no code, two have. Phonex: never for A, E, I, O, U, Y at any length, and at the usual length does for every other letter. Daitch-Mokotoff with the embedded rules, Latin-1 texts: never for B, F, G, L, P, Q, V, W, does for every other letter; outside Latin-1 it may even for those (a letter after ą is passed over). Double Metaphone: for every letter there is a word whose codes change. NYSIIS, cut or not: never for B, F, G, J, L, S, W, X, Y in any text, and does for every other letter. Caverphone, ASCII texts: never for F, J, K, L, M, Q, S, V, W, X, Y, Z in version 1 and F, K, L, M, Q, S, V, X, Z in version 2, and does for every other letter.", "quantifier": "all texts around the doubled letter, all letters, mappings, maximal lengths and Unicode tables", "why_tests_cant": "the claim is about every text with the letter at every place; the exact set of letters is the point", "anchors": ["src/soundex.rs", "src/refined_soundex.rs", "src/cologne.rs", "src/metaphone.rs", "src/match_rating_approach.rs", "src/phonex.rs", "src/daitch_mokotoff.rs", "src/double_metaphone.rs"]}
{"id": "C86", "title": "What is settled while a name is typed", "statement": "When a text is continued, the code of the longer text keeps all but the last few characters of the code of the shorter one, whatever follows: Soundex (any mapping of 26 digits; the filling zeros apart) and Refined Soundex take nothing back on texts whose letters are ASCII; Cologne at most one digit, on any text, and nothing exactly when the last letter typed is none of C, D, P, T; Phonex at most one character besides the filling zeros, on any text and for any maximal length; Metaphone at most two letters for ASCII texts and any maximal length; Match Rating Approach at most three letters for ASCII texts; Daitch-Mokotoff encode, with the rules of the crate, at most three digits besides the filling zeros, on any text; NYSIIS at most four letters, on any text (strict keys: on ASCII texts). These bounds cannot be lowered. Double Metaphone has no bound at all (one letter typed at the end can change arbitrarily much of the code).", "quantifier": "all texts and all continuations, mappings, maximal lengths and Unicode tables", "why_tests_cant": "relates the codes of every text and every continuation of it", "anchors": ["src/soundex.rs: Soundex::encode", "src/refined_soundex.rs: RefinedSoundex::encode", "src/cologne.rs: Cologne::encode", "src/metaphone.rs: Metaphone::encode", "src/phonex.rs: Phonex::encode", "src/match_rating_approach.rs: MatchRatingApproach::encode", "src/daitch_mokotoff.rs: DaitchMokotoffSoundex::encode", "src/double_metaphone.rs: DoubleMetaphone::double_metaphone", "src/nysiis.rs: Nysiis::encode"]}
{"id": "C87", "title": "Coarser and finer encoders", "statement": "Names that one encoder calls equal are called equal by a coarser one: NYSIIS strict is coarser than NYSIIS (for letters that are not ASCII both strict codes may panic, but then both do), Metaphone and Double Metaphone (primary and alternate) with a limit are coarser than with a larger or no limit (Metaphone: a limit of at least 1), Phonex with a limit of at least 2 (any script: 5) coarser than with a larger one; the genealogy Soundex, and Soundex with H and W separating, are coarser than Refined Soundex, as is every Soundex table that tells no more letters apart than the refined table; the default Soundex is, for names without H and W only (Ashcraft and Asacraft). Daitch-Mokotoff names with the same list of codes are equal for encode. Among the eleven default encoders none is coarser than another: for every ordered pair there are two ASCII names that the first calls equal and the second does not.", "quantifier": "every pair of names, every limit, every pair of tables, every pair of default encoders", "why_tests_cant": "a relation between two encoders over all pairs of names", "anchors": ["src/soundex.rs: encode", "src/refined_soundex.rs: encode", "src/metaphone.rs: encode", "src/double_metaphone.rs: is_double_metaphone_equal", "src/nysiis.rs: encode", "src/phonex.rs: encode", "src/daitch_mokotoff.rs: soundex, encode", "src/lib.rs: Encoder::is_encoded_equals"]}
{"id": "C88", "title": "Names without a code", "statement": "Exactly which names an encoder leaves without a code, so that they are all called equal. Cologne (every text): those where no letter of the uppercased text but H is a letter A-Z or an umlaut. Phonex (ASCII letters, length at least 2; code all zeros): those whose letters are a run of S, or H and a run of S. NYSIIS (every text, strict or not): those without letters, and those of an A, vowels, W's and H's before a consonant, then a hiss of S, Z, SCH and H. Match rating (ASCII): those of at most one character after trimming, or only of white space and -&'.,. Metaphone (ASCII, any limit but 0): those of other than one character where, the beginning rewritten, every character is silent: no letter, a vowel not in front, or a silent G, H, W or Y. And exactly which single letters guarantee a code whatever stands around them (in ASCII texts): NYSIIS BDFGJKLMNPQRTVXY; Metaphone BCDFJKLMNPQRSTVXZ; Double Metaphone, primary code, BCDFJKLMNPQTVZ, alternate code, BCDFJKMNPQRSTVZ; Caverphone 1 BCFKMNPQSTVXZ; Caverphone 2 ABCFIJKMNOPQSTUVXYZ; Daitch-Mokotoff with its own rules (a code other than 000000, in every branch) BCDFGKLMNPQRSTVWXZ. For every other letter there is a name with it that has no code.", "quantifier": "all texts, all letters, limits and Unicode tables", "why_tests_cant": "a guarantee about every text that has the letter anywhere; the exact set of texts without a code", "anchors": ["src/cologne.rs: Cologne::encode", "src/phonex.rs: Phonex::encode", "src/nysiis.rs: Nysiis::encode", "src/match_rating_approach.rs: MatchRatingApproach::encode", "src/metaphone.rs: Metaphone::encode", "src/double_metaphone.rs: DoubleMetaphone::double_metaphone", "src/caverphone.rs: Caverphone1::encode, Caverphone2::encode", "src/daitch_mokotoff.rs: DaitchMokotoffSoundex::encode, soundex"]}
{"id": "C89", "title": "Letters that may be exchanged", "statement": "Which letters an encoder does not tell apart: writing one capital letter instead of another one never changes the outcome exactly if the two are in one of these groups. Soundex, after a letter: AEIOUY, BFPV, CGJKQSXZ, DT, HW, MN (genealogy table: AEHIOUWY, BFPV, CGJKQSXZ, DT, MN; any table: two letters with the same entry, H and W apart if they are special). Refined Soundex, after a letter: AEHIOUWY, BP, CKS, DT, FV, GJ, MN, QXZ. Cologne, anywhere: AOU, DT, EIJY, FVW, KQ, MN, SZ. Caverphone 1 and 2, anywhere in an ASCII text: FV, KX, SZ. Match rating, in an ASCII text after something that is not removed: AEIOU. Daitch-Mokotoff (default rules, all codes), anywhere after Latin-1 text: BFVW, GQ. Phonex, anywhere: AEIOUY, FV; after two letters: AEIOUY, BFPV, HW, JKQXZ, MN. NYSIIS, after two letters: AOU, GQ. Metaphone and Double Metaphone tell any two letters apart, even after three letters.", "quantifier": "all pairs of capital letters, all texts before and after them", "why_tests_cant": "a test exchanges two letters in a few names; that no text whatever tells them apart needs a proof over all texts", "anchors": ["src/soundex.rs: Soundex::encode", "src/refined_soundex.rs: RefinedSoundex::encode", "src/cologne.rs: Cologne::encode", "src/caverphone.rs: Caverphone1, Caverphone2", "src/match_rating_approach.rs: MatchRatingApproach::encode", "src/daitch_mokotoff.rs: DaitchMokotoffSoundex", "src/phonex.rs: Phonex::encode", "src/nysiis.rs: Nysiis::encode", "src/metaphone.rs: Metaphone::encode", "src/double_metaphone.rs: DoubleMetaphone"]}
{"id": "C90", "title": "Characters that may be left out", "statement": "Which characters can be put into a name or left out, anywhere, without changing the outcome. Signs (every ASCII character that is no letter: spaces, hyphens, apostrophes, digits, ...): for Soundex and Refined Soundex with any mapping, NYSIIS and Phonex all of them, in any text; for both Caverphones all of them, in any text without a Greek capital sigma; for the Match Rating Approach exactly white space and - & ' . , (texts of at least two characters that are not white); for Daitch-Mokotoff exactly white space (white space with any rules); for Cologne, Metaphone (limits of 2 or more) and Double Metaphone none: each of them changes the code of some name. Letters (either case) after some other letter: for Soundex, any mapping, every letter with the sign - in it, and H and W when they are special; so exactly H and W by default, exactly A E H I O U W Y with the genealogy mapping; for the Match Rating Approach exactly the vowels; for Refined Soundex, Cologne, Caverphone, NYSIIS, Phonex, Daitch-Mokotoff, Metaphone and Double Metaphone none.", "quantifier": "all texts around the character, all ASCII characters, mappings, maximal lengths and Unicode tables", "why_tests_cant": "Whether O'Brien, O Brien and OBrien are found together must hold for every name; a test tries a few names and one sign each.", "anchors": ["src/soundex.rs: Soundex", "src/refined_soundex.rs: RefinedSoundex", "src/nysiis.rs: Nysiis", "src/phonex.rs: Phonex", "src/caverphone.rs: Caverphone1, Caverphone2", "src/match_rating_approach.rs: clean_name, remove_vowels", "src/daitch_mokotoff.rs: inner_soundex", "src/cologne.rs: Cologne", "src/metaphone.rs: Metaphone", "src/double_metaphone.rs: DoubleMetaphone"]}
{"id": "C91", "title": "Small and capital letters in every script", "statement": "Writing a whole text in capitals or in small letters (to_uppercase, to_lowercase, full Unicode rules). In capitals: Cologne, Metaphone and Double Metaphone give the same outcome for every text; the Match Rating Approach for every text of at least two characters that are not white (a single ı has a code, its capital I has none); Soundex, Refined Soundex (any mapping), NYSIIS and Phonex for every text without 27 listed characters whose capital is written with a combining mark; both Caverphones, Beider-Morse and Daitch-Mokotoff (any rules) for every text without the listed letters (ß, ı, ligatures, sigmas, ...) that the small letters of their capitals are not. In small letters: Caverphone and Beider-Morse for every text; all the others for every text without İ, ϴ, ẞ and the Ohm, Kelvin and Angstrom signs (Daitch-Mokotoff: without İ and the Greek capital sigma). The exceptions are real: for ǰ, İ, ẞ, the Kelvin sign and ß some outcome does change.", "quantifier": "all texts of any script, all mappings, rules and maximal lengths; the Unicode tables of version 14", "why_tests_cant": "There are over a thousand pairs of letters and infinitely many texts; a test tries a few words.", "anchors": ["src/lib.rs: SoundexUtils::soundex_clean", "src/lib.rs: Encoder", "src/cologne.rs: Cologne", "src/metaphone.rs: Metaphone", "src/double_metaphone.rs: DoubleMetaphone", "src/match_rating_approach.rs: MatchRatingApproach", "src/caverphone.rs: Caverphone1, Caverphone2", "src/daitch_mokotoff.rs: DaitchMokotoffSoundex", "src/beider_morse/mod.rs: BeiderMorse"]}
{"id": "C92", "title": "Neighbouring letters that may be swapped", "statement": "Which neighbouring capital letters an encoder does not read in order: writing two of them the other way round never changes the outcome exactly if the two are equal or as follows. Soundex, after a letter: both in AEIOUY, BFPV, CGJKQSXZ, DT or MN, or one of them H or W (genealogy mapping: BFPV, CGJKQSXZ, DT, MN, or one of them in AEHIOUWY; any mapping: one of them with the sign - in it, or H or W when they are special). Refined Soundex, after a letter: both in AEHIOUWY, BP, CKS, DT, FV, GJ, MN, QXZ (any mapping: letters with the same code). Match rating, after a letter: one of them a vowel. Cologne, anywhere: both in AOU, DT, EIJY, FVW, KQ, MN, SZ. Daitch-Mokotoff (default rules, all codes), anywhere after Latin-1 text: BFVW, GQ. Phonex, after two letters: AEIOUY, BFPV, HW, JKQXZ, MN. NYSIIS, after two letters: AOU, GQ. Caverphone, anywhere in an ASCII text: AO, FV, KX, SZ, and EI for Caverphone 1. Metaphone, after three letters in an ASCII text: EI. Double Metaphone reads any two letters in order, even after three letters.", "quantifier": "all pairs of capital letters, all texts before and after them", "why_tests_cant": "Transposed letters are the commonest typing errors, and whether an encoder forgives one depends on everything around it; tests try a few names.", "anchors": ["src/soundex.rs: encode", "src/refined_soundex.rs: encode", "src/cologne.rs: encode", "src/match_rating_approach.rs: encode", "src/caverphone.rs: encode", "src/daitch_mokotoff.rs: inner_soundex", "src/phonex.rs: encode", "src/nysiis.rs: encode", "src/metaphone.rs: encode", "src/double_metaphone.rs: double_metaphone"]}
{"id": "C93", "title": "A spelling mistake moves the code a bounded way", "statement": "One character too many, missing or replaced by another in a name, wherever it happens, changes the code by a bounded number of such mistakes, and so n mistakes change it by at most n times that number (the edit distance of two codes is at most the number times the edit distance of the names): at most 2 for Refined Soundex (ASCII characters, any mapping of 26 codes), at most 5 for Cologne (characters whose capital is at most one character), at most 5 for Metaphone without a length limit (ASCII names). No smaller numbers will do. Double Metaphone without a length limit has no such number, for either code: with a W at the end the primary code of GNGN…GN changes from NN…N to NKN…KN and the alternate code of JAJA…JA from AHH…H to AJJ…JF.", "quantifier": "all names, all sequences of mistakes, at any place", "why_tests_cant": "How far one changed letter reaches (through what its neighbours give, letters that are passed over, dropped repetitions and the rules for the beginning and the end) depends on everything around it: a statement over all pairs of names.", "anchors": ["src/refined_soundex.rs: encode", "src/cologne.rs: encode", "src/metaphone.rs: encode"]}
{"id": "C94", "title": "How long a code can be", "statement": "The room that the codes without a length limit need, in terms of the name: a Metaphone code has at most three characters for every two of an ASCII name, a Cologne code at most two digits for each character of the uppercase text, a Refined Soundex code at most one character more than the name has letters, a NYSIIS key at most as many as the uppercase letters of the name, a primary code of Double Metaphone at most three letters for every two of an ASCII name and an alternate code at most two letters for each (whatever the limit). For names of every size there are names that need as much (an alternate code: all but one of the letters).", "quantifier": "all names of any length", "why_tests_cant": "A bound over names of every length, where single letters may write two characters and each step may rewrite several; and that no smaller bound holds needs names of every length.", "anchors": ["src/metaphone.rs: encode", "src/cologne.rs: encode", "src/refined_soundex.rs: encode", "src/nysiis.rs: encode", "src/double_metaphone.rs: double_metaphone"]}
{"id": "C95", "title": "The code of a code", "statement": "Encoding a code again, as an index does that by mistake encodes its keys twice. Soundex: only the first letter is left, filled with 000. Refined Soundex: the first letter and its digit. Cologne: nothing. Daitch-Mokotoff with the embedded rules: 000000. Phonex of a length of 2 or more: the first letter filled with 0, and only 0 when it is S or H. Match rating: a code of at least two characters is its own code exactly when no consonant is doubled in it, a shorter one has no code; the fifth encoding of an ASCII name is final, and the fourth need not be. NYSIIS, strict or not: the code of a code is that code or a shorter one, so after at most as many times as the code has letters nothing changes any more; without the limit no fixed number of times is enough for all names. Caverphone 1: the fourth encoding of a name is final, and the third need not be; Caverphone 2: the third is final, and the second need not be. Metaphone, under any limit: the fifth encoding of a name is final, and without a limit the fourth need not be; the code of a code may even be longer. Double Metaphone without a limit, primary or alternate: no fixed number of times is enough for all names. The primary code of every name settles, whatever the limit, after at most nine encodings for four letters of the code, and three. The alternate code of some names never settles (Snome: XNM and SNM in turn, with the default limit too).", "quantifier": "every text (for Phonex and NYSIIS texts whose letters are ASCII, for Caverphone texts whose lowercase letters are ASCII, for Match rating ASCII texts), every number of repetitions", "why_tests_cant": "A statement about all codes that exist, and about every number of encodings; that no number of times is enough for NYSIIS needs names of every length.", "anchors": ["src/soundex.rs: encode", "src/refined_soundex.rs: encode", "src/cologne.rs: encode", "src/daitch_mokotoff.rs: soundex, encode", "src/phonex.rs: encode", "src/match_rating_approach.rs: encode", "src/nysiis.rs: encode", "src/metaphone.rs: encode", "src/caverphone.rs: encode"]}
{"id": "C96", "title": "White space of every script", "statement": "The white space characters are the twenty-five of the Unicode property White_Space (tab to carriage return, space, U+0085, no-break space, ogham space, U+2000 to U+200A, line and paragraph separators, narrow no-break, mathematical and ideographic space) and no others. Under the real Unicode tables: for Daitch-Mokotoff with its default rules they are exactly the characters, of the whole of Unicode, that may be put anywhere into a name or left out without changing the codes (with any rules they may be left out); Soundex and Refined Soundex with any mapping, NYSIIS and Phonex ignore each of them anywhere in any text, both Caverphones in any text without a Greek capital sigma, the Match Rating Approach in texts of at least two characters that are not white; Double Metaphone ignores any run of them before and after a text; for Beider-Morse, with given languages, any one of them can stand for any other anywhere in a text unless one of the two texts then starts with a particle of the generic names, and always for Ashkenazi and Sephardic names.", "quantifier": "all texts around the character, all characters of Unicode, all mappings, rules, engines, language sets and maximal lengths", "why_tests_cant": "Names copied from web pages and spreadsheets carry no-break and thin spaces; a test tries one or two of them in one name, the claim is about each of them everywhere, and that nothing else is treated so.", "anchors": ["src/daitch_mokotoff.rs: inner_soundex", "src/soundex.rs: Soundex", "src/refined_soundex.rs: RefinedSoundex", "src/nysiis.rs: Nysiis", "src/phonex.rs: Phonex", "src/caverphone.rs: Caverphone1, Caverphone2", "src/match_rating_approach.rs: clean_name", "src/double_metaphone.rs: DoubleMetaphone", "src/beider_morse/engine.rs: encode"]}
{"id": "C97", "title": "Names inside longer names", "statement": "Refined Soundex: two names with the same code may be exchanged inside every longer name - the same text in front and the same text behind leave the codes equal (or both fail), with every mapping of 26 characters. No other encoder has this property (Beider-Morse not considered): for Soundex, Cologne, Metaphone, NYSIIS strict or not, Phonex, Caverphone 1 and 2, Match rating, Double Metaphone primary and alternate and Daitch-Mokotoff with the embedded rules there are two names with the same code, not empty, that have different codes once the same letter is put in front of both, and two once the same letter is put behind both.", "quantifier": "every text in front and behind, every two names that have the same code", "why_tests_cant": "A statement about every two matching names and everything around them; a comparison of compound names by their parts relies on it.", "anchors": ["src/refined_soundex.rs: encode", "src/soundex.rs: encode", "src/cologne.rs: encode", "src/metaphone.rs: encode", "src/nysiis.rs: encode", "src/phonex.rs: encode", "src/caverphone.rs: encode", "src/match_rating_approach.rs: encode", "src/double_metaphone.rs: encode", "src/daitch_mokotoff.rs: encode"]}
{"id": "C98", "title": "Letters with accents", "statement": "Writing a capital for a Latin-1 letter beyond ASCII (À to ÿ without × and ÷) changes no code wherever the letter stands, exactly in these cases. Match rating (text that is not white space around it, and ÿ apart): A for ÀÁÂÃÄÅ, C for Ç, E for ÈÉÊË, I for ÌÍÎÏ, N for Ñ, O for ÒÓÔÕÖ, U for ÙÚÛÜ, Y for Ý, capital or small - but É alone has the code E and E alone has none. Daitch-Mokotoff with the rules of the crate (Latin-1 letters before it): the same without Ü, and A for Æ, D for Ð, O for Ø, Y for ÿ, S for ß, and B, F, V or W for Þ; Ü is not folded: Übel has the code 780000 and Ubel 078000. Cologne: A, O or U for Ä, Ö and Ü, S or Z for ß. Soundex, Refined Soundex and NYSIIS: S for ß only. Phonex, Caverphone 1 and 2, Metaphone and Double Metaphone (with the default limit or none): never - every such letter and every capital have a place between ASCII texts where the code shows which one it is.", "quantifier": "every such letter, every capital, every text around them (of the kinds named), every Unicode behaviour outside Latin-1, every Soundex and Refined Soundex mapping for the positive half, both NYSIIS modes", "why_tests_cant": "A test writes a few names with and without their accents; that no text around a letter ever shows the difference, and that no other letter and capital are interchangeable, concerns every text.", "anchors": ["src/match_rating_approach.rs: MatchRatingApproach, clean_name, remove_accent", "rules/dmrules.txt: folding rules", "src/daitch_mokotoff.rs: DaitchMokotoffSoundex", "src/cologne.rs: Cologne", "src/soundex.rs: Soundex", "src/refined_soundex.rs: RefinedSoundex", "src/nysiis.rs: Nysiis"]}
{"id": "C99", "title": "Renaming the codes of a mapping", "statement": "What counts in a mapping is which letters have the same code, not the codes themselves. With the codes of a mapping replaced by others (different ones for different codes) the Refined Soundex code of every text is the old one with its characters after the first replaced likewise, and a text panics under the one exactly when it does under the other; so for Soundex if 0 and - (which are no codes but stand for letters to skip) stay what they are. Hence two mappings that tell the same letters apart give the same answers of is_encoded_equals and difference for every two texts - for Refined Soundex is_encoded_equals answers alike for all texts only with such mappings - and so for Soundex if 0 and - stand in the same places; without that it fails (with 0 and 1 exchanged in the default mapping, A and AB become equal).", "quantifier": "every mapping (of 26 characters for the second half), every replacement, every two texts in any script, H and W special or not", "why_tests_cant": "A statement about every pair of mappings and all texts; tests can use a few mappings.", "anchors": ["src/soundex.rs: Soundex, encode, TryFrom", "src/refined_soundex.rs: RefinedSoundex, encode, TryFrom", "src/lib.rs: is_encoded_equals, SoundexCommons::difference"]}
