{
 "claims": [
  {
   "property": "C01",
   "status": "proved",
   "theorems": [
    "C01_is_encoded_equals_spec",
    "C01_reflexive",
    "C01_symmetric",
    "C01_transitive",
    "C01_panics_iff"
   ],
   "note": "Files: Props_lib.v. Concrete instances: C01_nonvacuous."
  },
  {
   "property": "C02",
   "status": "proved",
   "theorems": [
    "C02_difference_spec",
    "C02_symmetric",
    "C02_bounded",
    "C02_full_iff_equal",
    "C02_empty_code",
    "C02_soundex_difference",
    "C02_triangle",
    "C02_shared"
   ],
   "note": "Files: Props_lib.v, Props_soundex.v, Props_typo.v. Concrete instances: C02_nonvacuous."
  },
  {
   "property": "C03",
   "status": "proved",
   "theorems": [
    "C03_accessors",
    "C03_range",
    "C03_range_from",
    "C03_range_to",
    "C03_range_full",
    "C03_range_inclusive",
    "C03_range_to_inclusive",
    "C03_split",
    "C03_any_sequence",
    "C03_len"
   ],
   "note": "Files: Props_api.v, Props_lib.v. Concrete instances: C03_nonvacuous."
  },
  {
   "property": "C04",
   "status": "proved",
   "theorems": [
    "C04_inclusive_max_checked",
    "C04_inclusive_max_wrapping",
    "C04_tail_law_refuted"
   ],
   "note": "Files: Props_lib.v. Concrete instances: C04_nonvacuous."
  },
  {
   "property": "C05",
   "status": "proved",
   "theorems": [
    "C05_soundex_format"
   ],
   "note": "Files: Props_soundex.v. Concrete instances: C05_nonvacuous."
  },
  {
   "property": "C06",
   "status": "proved",
   "theorems": [
    "C06_soundex_is_american_soundex",
    "C06_soundex_custom_table",
    "C06_soundex_genealogy",
    "C06_hw_transparent",
    "C06_soundex_every_text",
    "C06_default_every_text"
   ],
   "note": "Files: Props_soundex.v. Concrete instances: C06_nonvacuous, C06_every_nonvacuous."
  },
  {
   "property": "C07",
   "status": "proved",
   "theorems": [
    "C07_total_on_ascii_letters",
    "C07_panics_iff",
    "C07_total_refuted",
    "C07_foreign_initial_panics"
   ],
   "note": "Files: Props_soundex.v. Concrete instances: C07_nonvacuous."
  },
  {
   "property": "C08",
   "status": "proved",
   "theorems": [
    "C08_soundex_ignores_case_and_nonletters",
    "C08_refined_ignores_case_and_nonletters",
    "C08_insert_nonletter"
   ],
   "note": "Files: Props_soundex.v. Concrete instances: C08_nonvacuous."
  },
  {
   "property": "C09",
   "status": "proved",
   "theorems": [
    "C09_try_from_ok_iff",
    "C09_try_from_err_iff",
    "C09_refined_try_from",
    "C09_default_tables"
   ],
   "note": "Files: Props_soundex.v. Concrete instances: C09_nonvacuous."
  },
  {
   "property": "C10",
   "status": "proved",
   "theorems": [
    "C10_refined_is_its_definition",
    "C10_refined_custom_table",
    "C10_refined_format",
    "C10_refined_every_text"
   ],
   "note": "Files: Props_soundex.v. Concrete instances: C10_nonvacuous."
  },
  {
   "property": "C11",
   "status": "proved",
   "theorems": [
    "C11_refined_panics_iff",
    "C11_refined_total_on_ascii_letters",
    "C11_refined_total_refuted"
   ],
   "note": "Files: Props_soundex.v. Concrete instances: C11_nonvacuous."
  },
  {
   "property": "C12",
   "status": "proved",
   "theorems": [
    "C12_cologne_total",
    "C12_cologne_digits",
    "C12_cologne_length"
   ],
   "note": "Files: Props_cologne.v. Concrete instances: C12_nonvacuous."
  },
  {
   "property": "C13",
   "status": "proved",
   "theorems": [
    "C13_cologne_is_its_table"
   ],
   "note": "Files: Props_cologne.v. Concrete instances: C13_nonvacuous."
  },
  {
   "property": "C14",
   "status": "proved",
   "theorems": [
    "C14_ascii_case",
    "C14_umlauts",
    "C14_sharp_s",
    "C14_nonletter_beside_nonletter",
    "C14_drop_nonletters_refuted"
   ],
   "note": "Files: Props_cologne.v. Concrete instances: C14_nonvacuous."
  },
  {
   "property": "C15",
   "status": "proved",
   "theorems": [
    "C15_caverphone1_format",
    "C15_caverphone2_format",
    "C15_caverphone_ascii"
   ],
   "note": "Files: Props_caverphone.v. Concrete instances: C15_nonvacuous."
  },
  {
   "property": "C16",
   "status": "proved",
   "theorems": [
    "C16_caverphone_returned",
    "C16_caverphone_total_refuted",
    "C16_caverphone_no_fuel"
   ],
   "note": "Files: Props_caverphone.v. Concrete instances: C16_nonvacuous."
  },
  {
   "property": "C17",
   "status": "proved",
   "theorems": [
    "C17_caverphone_cleaning",
    "C17_caverphone_ascii_case",
    "C17_caverphone_insert_nonletter",
    "C17_caverphone_ascii_letters_only"
   ],
   "note": "Files: Props_caverphone.v. Concrete instances: C17_nonvacuous."
  },
  {
   "property": "C18",
   "status": "proved",
   "theorems": [
    "C18_strict_is_truncation",
    "C18_strict_is_byte_prefix"
   ],
   "note": "Files: Props_nysiis.v. Concrete instances: C18_nonvacuous."
  },
  {
   "property": "C19",
   "status": "proved",
   "theorems": [
    "C19_key_tail_letters",
    "C19_key_no_repetition",
    "C19_no_repetition_refuted",
    "C19_key_never_ends_in_A",
    "C19_key_uppercase",
    "C19_key_nonempty_refuted"
   ],
   "note": "Files: Props_nysiis.v. Concrete instances: C19_nonvacuous."
  },
  {
   "property": "C20",
   "status": "proved",
   "theorems": [
    "C20_nonstrict_total",
    "C20_strict_total_on_ascii_letters",
    "C20_strict_total_refuted",
    "C20_ignores_case_and_nonletters"
   ],
   "note": "Files: Props_nysiis.v. Concrete instances: C20_nonvacuous."
  },
  {
   "property": "C21",
   "status": "proved",
   "theorems": [
    "C21_phonex_format",
    "C21_phonex_zero",
    "C21_phonex_byte_length",
    "C21_phonex_one_refuted"
   ],
   "note": "Files: Props_phonex.v. Concrete instances: C21_nonvacuous."
  },
  {
   "property": "C22",
   "status": "proved",
   "theorems": [
    "C22_phonex_total",
    "C22_phonex_ignores_case_and_nonletters",
    "C22_phonex_trailing_s"
   ],
   "note": "Files: Props_phonex.v. Concrete instances: C22_nonvacuous."
  },
  {
   "property": "C23",
   "status": "proved",
   "theorems": [
    "C23_max_length_is_truncation",
    "C23_truncation_of_larger",
    "C23_max_length_ascii",
    "C23_single_character_ignores_limit"
   ],
   "note": "Files: Props_metaphone.v. Concrete instances: C23_larger_nonvacuous, C23_nonvacuous."
  },
  {
   "property": "C24",
   "status": "proved",
   "theorems": [
    "C24_total_on_ascii",
    "C24_alphabet",
    "C24_alphabet_ascii",
    "C24_ascii_case",
    "C24_length"
   ],
   "note": "Files: Props_metaphone.v. Concrete instances: C24_nonvacuous."
  },
  {
   "property": "C25",
   "status": "proved",
   "theorems": [
    "C25_total_refuted",
    "C25_e_acute_s_panics",
    "C25_total",
    "C25_panics_iff",
    "C25_unsafe_letters_panic"
   ],
   "note": "Files: Props_metaphone.v, Props_metaphone_any.v. Concrete instances: C25_nonvacuous."
  },
  {
   "property": "C26",
   "status": "proved",
   "theorems": [
    "C26_max_length",
    "C26_truncation",
    "C26_truncation_of_larger"
   ],
   "note": "Files: Props_double_metaphone.v. Concrete instances: C26_nonvacuous."
  },
  {
   "property": "C27",
   "status": "proved",
   "theorems": [
    "C27_alternate_code",
    "C27_ascii_never_torn",
    "C27_longer_panics_more",
    "C27_total_ascii",
    "C27_alphabet",
    "C27_length",
    "C27_total_refuted",
    "C27_total_safe",
    "C27_unsafe_letters_panic",
    "C27_panic_needs",
    "C27_distances_reached"
   ],
   "note": "Files: Props_codes.v, Props_dm_looks.v, Props_double_metaphone.v, Props_double_metaphone_any.v, Props_double_metaphone_local.v. Concrete instances: C27_nonvacuous, C27_local_nonvacuous."
  },
  {
   "property": "C28",
   "status": "proved",
   "theorems": [
    "C28_surrounding_whitespace",
    "C28_ascii_case",
    "C28_encoders",
    "C28_equality",
    "C28_equivalence"
   ],
   "note": "Files: Props_double_metaphone.v. Concrete instances: C28_nonvacuous."
  },
  {
   "property": "C29",
   "status": "proved",
   "theorems": [
    "C29_code",
    "C29_at_most_six_bytes",
    "C29_format",
    "C29_ascii_case",
    "C29_noise_ignored",
    "C29_code_any"
   ],
   "note": "Files: Props_mra.v, Props_mra_compare.v. Concrete instances: C29_nonvacuous."
  },
  {
   "property": "C30",
   "status": "proved",
   "theorems": [
    "C30_symmetric",
    "C30_blank_or_single_is_false",
    "C30_reflexive",
    "C30_decision_same_length",
    "C30_same_up_to_case",
    "C30_transitive_refuted",
    "C30_real_tables",
    "C30_decision",
    "C30_decision_ascii",
    "C30_same_code",
    "C30_same_up_to_case_any"
   ],
   "note": "Files: Props_mra.v, Props_mra_compare.v. Concrete instances: C30_nonvacuous, C30_decision_nonvacuous, C30_same_nonvacuous."
  },
  {
   "property": "C31",
   "status": "proved",
   "theorems": [
    "C31_encode_total_ascii",
    "C31_compare_total",
    "C31_encode_total_refuted",
    "C31_compare_total_ascii_refuted",
    "C31_release_symmetry_refuted",
    "C31_encode_panics",
    "C31_compare_panics_checked",
    "C31_compare_release"
   ],
   "note": "Files: Props_mra.v, Props_mra_compare.v. Concrete instances: C31_nonvacuous, C31_any_nonvacuous."
  },
  {
   "property": "C32",
   "status": "proved",
   "theorems": [
    "C32_quadruplet",
    "C32_folding",
    "C32_include",
    "C32_language",
    "C32_lang",
    "C32_quadruplet_roundtrip",
    "C32_one_reading",
    "C32_folding_roundtrip",
    "C32_include_roundtrip",
    "C32_language_roundtrip",
    "C32_lang_roundtrip",
    "C32_progress",
    "C32_escaped_quote_keeps_backslash",
    "C32_lone_backslash_refuted",
    "C32_part_may_contain_line_feed"
   ],
   "note": "Files: Props_rules.v. Concrete instances: C32_nonvacuous."
  },
  {
   "property": "C33",
   "status": "proved",
   "theorems": [
    "C33_end_of_line",
    "C33_single_line_comment",
    "C33_stops_at_line_feed",
    "C33_multiline_comment",
    "C33_lines_counted"
   ],
   "note": "Files: Props_rules.v. Concrete instances: C33_nonvacuous."
  },
  {
   "property": "C34",
   "status": "proved",
   "theorems": [
    "C34_error",
    "C34_off_by_comments",
    "C34_lines_read",
    "C34_line_number_refuted"
   ],
   "note": "Files: Props_dm.v. Concrete instances: C34_nonvacuous."
  },
  {
   "property": "C35",
   "status": "proved",
   "theorems": [
    "C35_codes",
    "C35_digits",
    "C35_default",
    "C35_default_codes",
    "C35_non_ascii_replacement_panics"
   ],
   "note": "Files: Props_dm.v. Concrete instances: C35_nonvacuous."
  },
  {
   "property": "C36",
   "status": "proved",
   "theorems": [
    "C36_encode_is_first",
    "C36_encode_soundex"
   ],
   "note": "Files: Props_dm.v. Concrete instances: C36_nonvacuous."
  },
  {
   "property": "C37",
   "status": "proved",
   "theorems": [
    "C37_choice",
    "C37_choice_unique",
    "C37_choice_exists",
    "C37_rule_order_irrelevant"
   ],
   "note": "Files: Props_dm.v. Concrete instances: C37_nonvacuous."
  },
  {
   "property": "C38",
   "status": "proved",
   "theorems": [
    "C38_whitespace",
    "C38_ascii_case",
    "C38_folding",
    "C38_no_folding",
    "C38_leading_unknown",
    "C38_same_text"
   ],
   "note": "Files: Props_dm.v. Concrete instances: C38_nonvacuous."
  },
  {
   "property": "C39",
   "status": "proved",
   "theorems": [
    "C39_codes",
    "C39_ascii_scan",
    "C39_codes_set",
    "C39_scan_exists",
    "C39_ascii_scan_exists",
    "C39_firsts_unique",
    "C39_ascii_source",
    "C39_multibyte_pattern_skips_refuted"
   ],
   "note": "Files: Props_dm.v. Concrete instances: C39_nonvacuous."
  },
  {
   "property": "C40",
   "status": "proved",
   "theorems": [
    "C40_single",
    "C40_repeats",
    "C40_duplicates_refuted"
   ],
   "note": "Files: Props_dm.v. Concrete instances: C40_nonvacuous."
  },
  {
   "property": "C41",
   "status": "proved",
   "theorems": [
    "C41_reading",
    "C41_outcome",
    "C41_terminates",
    "C41_accepts",
    "C41_table",
    "C41_panics_only_on_empty_pattern"
   ],
   "note": "Files: Props_dm.v. Concrete instances: C41_nonvacuous."
  },
  {
   "property": "C42",
   "status": "proved",
   "theorems": [
    "C42_restrict_is_intersection",
    "C42_merge_is_union",
    "C42_well_formed",
    "C42_from_vec",
    "C42_from_set",
    "C42_restrict_commutative",
    "C42_restrict_associative",
    "C42_restrict_idempotent",
    "C42_restrict_any",
    "C42_merge_commutative",
    "C42_merge_associative",
    "C42_merge_idempotent",
    "C42_merge_none",
    "C42_is_empty",
    "C42_is_singleton",
    "C42_any",
    "C42_any_singleton",
    "C42_any_none"
   ],
   "note": "Files: Props_bm_languages.v. Concrete instances: C42_nonvacuous."
  },
  {
   "property": "C43",
   "status": "proved",
   "theorems": [
    "C43_order",
    "C43_total_order",
    "C43_insert",
    "C43_insert_keeps_first",
    "C43_collect"
   ],
   "note": "Files: Props_bm_languages.v. Concrete instances: C43_nonvacuous."
  },
  {
   "property": "C44",
   "status": "proved",
   "theorems": [
    "C44_equivalent",
    "C44_unobservable",
    "C44_fallback",
    "C44_right_context",
    "C44_left_context",
    "C44_right_context_complete",
    "C44_left_context_complete",
    "C44_groups_refuted",
    "C44_dot_refuted",
    "C44_group_context_needs_parenthesis",
    "C44_shipped_dot_rule",
    "C44_range_is_literal"
   ],
   "note": "Files: Props_bm_regex.v. Concrete instances: C44_nonvacuous."
  },
  {
   "property": "C45",
   "status": "proved",
   "theorems": [
    "C45_guess",
    "C45_never_empty",
    "C45_declared",
    "C45_well_formed",
    "C45_order_irrelevant"
   ],
   "note": "Files: Props_bm_languages.v. Concrete instances: C45_nonvacuous."
  },
  {
   "property": "C46",
   "status": "proved",
   "theorems": [
    "C46_main_rules",
    "C46_without_final_rules",
    "C46_bound",
    "C46_limit_refuted",
    "C46_one"
   ],
   "note": "Files: Props_bm_engine.v. Concrete instances: C46_nonvacuous."
  },
  {
   "property": "C47",
   "status": "proved",
   "theorems": [
    "C47_alternatives",
    "C47_separated"
   ],
   "note": "Files: Props_bm_engine.v. Concrete instances: C47_nonvacuous."
  },
  {
   "property": "C48",
   "status": "proved",
   "theorems": [
    "C48_code",
    "C48_encode",
    "C48_ends",
    "C48_code_unique"
   ],
   "note": "Files: Props_bm_engine.v. Concrete instances: C48_nonvacuous."
  },
  {
   "property": "C49",
   "status": "proved",
   "theorems": [
    "C49_prefixed",
    "C49_lowercase",
    "C49_other_name_types",
    "C49_front"
   ],
   "note": "Files: Props_bm_engine.v. Concrete instances: C49_nonvacuous."
  },
  {
   "property": "C50",
   "status": "proved",
   "theorems": [
    "C50_words",
    "C50_one_word",
    "C50_concat",
    "C50_kept",
    "C50_words_exist"
   ],
   "note": "Files: Props_bm_engine.v. Concrete instances: C50_nonvacuous."
  },
  {
   "property": "C51",
   "status": "proved",
   "theorems": [
    "C51_accepted",
    "C51_accepted_only",
    "C51_builds",
    "C51_total",
    "C51_total_languages",
    "C51_undeclared_panics",
    "C51_any_needed",
    "C51_default"
   ],
   "note": "Files: Props_bm_config.v. Concrete instances: C51_nonvacuous, C51_default_nonvacuous."
  },
  {
   "property": "C52",
   "status": "proved",
   "theorems": [
    "C52_name_type",
    "C52_name_type_rejects",
    "C52_rule_type",
    "C52_rule_type_rejects",
    "C52_language_filename",
    "C52_rule_filename_injective"
   ],
   "note": "Files: Props_bm_languages.v. Concrete instances: C52_nonvacuous."
  },
  {
   "property": "C53",
   "status": "proved",
   "theorems": [
    "C53_prefixed",
    "C53_words"
   ],
   "note": "Files: Props_bm_engine.v. Concrete instances: C53_nonvacuous."
  },
  {
   "property": "C54",
   "status": "proved",
   "theorems": [
    "C54_sound",
    "C54_complete",
    "C54_unique",
    "C54_include_replaces",
    "C54_include_keeps"
   ],
   "note": "Files: Props_bm_config.v. Concrete instances: C54_nonvacuous."
  },
  {
   "property": "C55",
   "status": "proved",
   "theorems": [
    "C55_no_outcome",
    "C55_never_ends"
   ],
   "note": "Files: Props_bm_config.v. Concrete instances: C55_nonvacuous."
  },
  {
   "property": "C56",
   "status": "proved",
   "theorems": [
    "C56_missing_languages"
   ],
   "note": "Files: Props_bm_config.v. Concrete instances: C56_nonvacuous."
  },
  {
   "property": "C57",
   "status": "proved",
   "theorems": [
    "C57_soundex_suffix_irrelevant",
    "C57_refined_prefix",
    "C57_full_code",
    "C57_soundex_prefix",
    "C57_refined_any_text"
   ],
   "note": "Files: Props_soundex.v, Props_streaming.v. Concrete instances: C57_nonvacuous, C57_any_nonvacuous."
  },
  {
   "property": "C58",
   "status": "proved",
   "theorems": [
    "C58_de_la"
   ],
   "note": "Files: Props_bm_engine.v. Concrete instances: C58_nonvacuous."
  },
  {
   "property": "C59",
   "status": "proved",
   "theorems": [
    "C59_silent_first_letter"
   ],
   "note": "Files: Props_metaphone.v. Concrete instances: C59_nonvacuous."
  },
  {
   "property": "C60",
   "status": "proved",
   "theorems": [
    "C60_van_von_test_never_fires",
    "C60_van_von_ch"
   ],
   "note": "Files: Props_double_metaphone.v, Props_double_metaphone_spec.v. Concrete instances: C60_nonvacuous."
  },
  {
   "property": "C61",
   "status": "proved",
   "theorems": [
    "C61_remaining",
    "C61_code_characters",
    "C61_characters",
    "C61_shadowed",
    "C61_unknown_text"
   ],
   "note": "Files: Props_bm_alphabet.v, Props_bm_engine.v. Concrete instances: C61_nonvacuous."
  },
  {
   "property": "C62",
   "status": "proved",
   "theorems": [
    "C62_expression",
    "C62_expression_error"
   ],
   "note": "Files: Props_bm_config.v. Concrete instances: C62_nonvacuous."
  },
  {
   "property": "C63",
   "status": "proved",
   "theorems": [
    "C63_merge_refuted",
    "C63_final_rules",
    "C63_languages",
    "C63_texts"
   ],
   "note": "Files: Props_bm_config.v. Concrete instances: C63_nonvacuous."
  },
  {
   "property": "C64",
   "status": "proved",
   "theorems": [
    "C64_looked_at",
    "C64_case",
    "C64_spacing",
    "C64_final_sigma",
    "C64_medial_sigma"
   ],
   "note": "Files: Props_bm_engine.v, Props_sigma.v. Concrete instances: C64_nonvacuous, C64_sigma_nonvacuous."
  },
  {
   "property": "C65",
   "status": "proved",
   "theorems": [
    "C65_nysiis_is_its_definition",
    "C65_strict_is_its_definition",
    "C65_every_text",
    "C65_strict_every_text",
    "C65_strict_panics_iff",
    "C65_every_key_unique",
    "C65_key_unique"
   ],
   "note": "Files: Props_nysiis_spec.v. Concrete instances: C65_every_text_nonvacuous, C65_nonvacuous."
  },
  {
   "property": "C66",
   "status": "proved",
   "theorems": [
    "C66_phonex_is_its_definition",
    "C66_code_unique",
    "C66_every_text",
    "C66_every_code_unique"
   ],
   "note": "Files: Props_phonex_spec.v. Concrete instances: C66_nonvacuous, C66_every_text_nonvacuous."
  },
  {
   "property": "C67",
   "status": "proved",
   "theorems": [
    "C67_caverphone1_is_its_definition",
    "C67_caverphone2_is_its_definition",
    "C67_caverphone1_every_input",
    "C67_caverphone2_every_input"
   ],
   "note": "Files: Props_caverphone_spec.v. Concrete instances: C67_nonvacuous."
  },
  {
   "property": "C68",
   "status": "proved",
   "theorems": [
    "C68_any_text",
    "C68_any_unique",
    "C68_any_ascii",
    "C68_returns_iff",
    "C68_metaphone_is_its_definition",
    "C68_code_exists_unique"
   ],
   "note": "Files: Props_metaphone_any.v, Props_metaphone_spec.v. Concrete instances: C68_any_nonvacuous, C68_nonvacuous."
  },
  {
   "property": "C69",
   "status": "proved",
   "theorems": [
    "C69_panics_iff",
    "C69_returns_iff",
    "C69_any_text",
    "C69_any_unique",
    "C69_any_ascii",
    "C69_double_metaphone_is_its_definition",
    "C69_codes_exist_unique",
    "C69_blank_has_no_code"
   ],
   "note": "Files: Props_dm_looks.v, Props_double_metaphone_any.v, Props_double_metaphone_spec.v. Concrete instances: C69_panics_nonvacuous, C69_any_nonvacuous, C69_nonvacuous."
  },
  {
   "property": "C70",
   "status": "proved",
   "theorems": [
    "C70_language_list",
    "C70_language_rules",
    "C70_language_rules_else",
    "C70_phonetic_rules"
   ],
   "note": "Files: Props_bm_errors.v. Concrete instances: C70_nonvacuous_lists, C70_nonvacuous_lang, C70_nonvacuous_rules."
  },
  {
   "property": "C71",
   "status": "proved",
   "theorems": [
    "C71_reports_the_first_problem",
    "C71_every_problem_is_reported",
    "C71_one_problem",
    "C71_none_if_accepted",
    "C71_unreadable_directory"
   ],
   "note": "Files: Props_bm_errors.v. Concrete instances: C71_nonvacuous, C71_missing_nonvacuous."
  },
  {
   "property": "C72",
   "status": "proved",
   "theorems": [
    "C72_builder",
    "C72_defaults",
    "C72_code",
    "C72_guessed_code",
    "C72_unique",
    "C72_embedded_files",
    "C72_default_code",
    "C72_default_any"
   ],
   "note": "Files: Props_bm_all.v. Concrete instances: C72_nonvacuous, C72_default_nonvacuous."
  },
  {
   "property": "C73",
   "status": "proved",
   "theorems": [
    "C73_nysiis",
    "C73_phonex",
    "C73_phonex_is_new",
    "C73_metaphone",
    "C73_double_metaphone",
    "C73_soundex",
    "C73_daitch_mokotoff",
    "C73_defaults_return"
   ],
   "note": "Files: Props_api.v. Concrete instances: C73_nonvacuous."
  },
  {
   "property": "C74",
   "status": "proved",
   "theorems": [
    "C74_last_flag",
    "C74_default",
    "C74_folding"
   ],
   "note": "Files: Props_api.v. Concrete instances: C74_nonvacuous."
  },
  {
   "property": "C75",
   "status": "proved",
   "theorems": [
    "C75_phonex",
    "C75_phonex_otherwise",
    "C75_double_metaphone",
    "C75_double_metaphone_otherwise",
    "C75_double_metaphone_equal",
    "C75_metaphone"
   ],
   "note": "Files: Props_api.v. Concrete instances: C75_nonvacuous."
  },
  {
   "property": "C76",
   "status": "proved",
   "theorems": [
    "C76_result",
    "C76_result_text",
    "C76_languages",
    "C76_languages_refuted",
    "C76_parse_error",
    "C76_dm_error",
    "C76_dm_error_text",
    "C76_parse_error_refuted",
    "C76_families",
    "C76_wrapped",
    "C76_bm_errors",
    "C76_booleans",
    "C76_untagged_refuted",
    "C76_foreign_errors",
    "C76_error_words"
   ],
   "note": "Files: Props_api.v, Props_typo.v. Concrete instances: C76_result_nonvacuous, C76_languages_nonvacuous, C76_parse_error_nonvacuous."
  },
  {
   "property": "C77",
   "status": "proved",
   "theorems": [
    "C77_scan_exists",
    "C77_soundex_panics_iff",
    "C77_soundex",
    "C77_encode",
    "C77_encode_panics_iff",
    "C77_six_bytes",
    "C77_ascii",
    "C77_encode_only"
   ],
   "note": "Files: Props_dm_any.v. Concrete instances: C77_nonvacuous."
  },
  {
   "property": "C78",
   "status": "proved",
   "theorems": [
    "C78_same_tables",
    "C78_same_codes",
    "C78_default_tables",
    "C78_default_codes",
    "C78_nesting_bound",
    "C78_engine_matters"
   ],
   "note": "Files: Props_bm_standard.v. Concrete instances: C78_nonvacuous."
  },
  {
   "property": "C79",
   "status": "proved",
   "theorems": [
    "C79_soundex_reads",
    "C79_refined_reads",
    "C79_nysiis_reads",
    "C79_phonex_reads",
    "C79_metaphone_reads",
    "C79_double_metaphone_reads",
    "C79_double_metaphone_result_reads",
    "C79_parse_error_reads",
    "C79_char_sequence_reads",
    "C79_unit_reads",
    "C79_name_type_reads",
    "C79_name_type_from_str",
    "C79_rule_type_reads",
    "C79_language_set_reads",
    "C79_soundex_round_trip",
    "C79_refined_round_trip",
    "C79_nysiis_round_trip",
    "C79_phonex_round_trip",
    "C79_metaphone_round_trip",
    "C79_double_metaphone_round_trip",
    "C79_double_metaphone_result_round_trip",
    "C79_parse_error_round_trip",
    "C79_char_sequence_round_trip",
    "C79_unit_round_trip",
    "C79_enum_round_trip",
    "C79_language_set_round_trip",
    "C79_mapping_complete",
    "C79_missing_setting",
    "C79_order_of_members"
   ],
   "note": "Files: Props_serde.v. Concrete instances: C79_nonvacuous."
  },
  {
   "property": "C80",
   "status": "proved",
   "theorems": [
    "C80_total_orders",
    "C80_soundex",
    "C80_refined",
    "C80_settings",
    "C80_double_metaphone_result",
    "C80_parse_error",
    "C80_char_sequence",
    "C80_enums",
    "C80_language_set",
    "C80_bytes",
    "C80_byte_length"
   ],
   "note": "Files: Props_compare.v. Concrete instances: C80_nonvacuous."
  },
  {
   "property": "C81",
   "status": "proved",
   "theorems": [
    "C81_soundex",
    "C81_genealogy",
    "C81_refined",
    "C81_cologne",
    "C81_match_rating",
    "C81_phonex",
    "C81_metaphone",
    "C81_double_metaphone",
    "C81_metaphone_limit",
    "C81_double_metaphone_limit",
    "C81_double_metaphone_alternate",
    "C81_double_metaphone_alternate_limit",
    "C81_nysiis",
    "C81_nysiis_strict",
    "C81_caverphone1",
    "C81_caverphone2",
    "C81_daitch_mokotoff",
    "C81_daitch_mokotoff_encode",
    "C81_how_many_soundex",
    "C81_how_many_caverphone1",
    "C81_how_many_daitch_mokotoff",
    "C81_how_many_double_metaphone",
    "C81_how_many_phonex",
    "C81_how_many_genealogy",
    "C81_how_many_metaphone",
    "C81_how_many_once"
   ],
   "note": "Files: Props_codes.v, Props_how_many.v. Concrete instances: C81_nonvacuous_alternate, C81_nonvacuous, C81_nonvacuous_daitch_mokotoff, C81_how_many_nonvacuous."
  },
  {
   "property": "C82",
   "status": "proved",
   "theorems": [
    "C82_product",
    "C82_bounded",
    "C82_embedded",
    "C82_one"
   ],
   "note": "Files: Props_dm_count.v. Concrete instances: C82_nonvacuous."
  },
  {
   "property": "C83",
   "status": "proved",
   "theorems": [
    "C83_alphabet",
    "C83_attained"
   ],
   "note": "Files: Props_bm_alphabet.v. Concrete instances: C83_nonvacuous."
  },
  {
   "property": "C84",
   "status": "proved",
   "theorems": [
    "C84_phoneme_length",
    "C84_word",
    "C84_large_limits",
    "C84_code_length",
    "C84_directory",
    "C84_default_length",
    "C84_default_limits",
    "C84_raising_refuted"
   ],
   "note": "Files: Props_bm_limit.v. Concrete instances: C84_nonvacuous."
  },
  {
   "property": "C85",
   "status": "proved",
   "theorems": [
    "C85_soundex",
    "C85_refined",
    "C85_soundex_ascii",
    "C85_soundex_ligature_refuted",
    "C85_cologne",
    "C85_cologne_iff",
    "C85_metaphone",
    "C85_metaphone_iff",
    "C85_mra",
    "C85_mra_iff",
    "C85_mra_single",
    "C85_phonex",
    "C85_phonex_iff",
    "C85_double_metaphone_refuted",
    "C85_daitch_mokotoff",
    "C85_daitch_mokotoff_iff",
    "C85_daitch_mokotoff_foreign_refuted",
    "C85_nysiis_refuted",
    "C85_caverphone1_refuted",
    "C85_caverphone2_refuted",
    "C85_nysiis",
    "C85_nysiis_iff",
    "C85_caverphone1",
    "C85_caverphone1_iff",
    "C85_caverphone2",
    "C85_caverphone2_iff"
   ],
   "note": "Files: Props_doubled.v, Props_doubled_more.v. Concrete instances: C85_nonvacuous, C85_more_nonvacuous."
  },
  {
   "property": "C86",
   "status": "proved",
   "theorems": [
    "C86_soundex",
    "C86_refined",
    "C86_metaphone",
    "C86_metaphone_iff",
    "C86_cologne",
    "C86_cologne_iff",
    "C86_cologne_letters",
    "C86_phonex",
    "C86_phonex_iff",
    "C86_mra",
    "C86_mra_iff",
    "C86_double_metaphone_refuted",
    "C86_double_metaphone_default",
    "C86_daitch_mokotoff",
    "C86_daitch_mokotoff_iff",
    "C86_nysiis_refuted",
    "C86_nysiis",
    "C86_nysiis_iff",
    "C86_nysiis_strict_iff"
   ],
   "note": "Files: Props_longer.v, Props_longer_nysiis.v. Concrete instances: C86_nonvacuous, C86_nysiis_nonvacuous."
  },
  {
   "property": "C87",
   "status": "proved",
   "theorems": [
    "C87_nysiis",
    "C87_metaphone",
    "C87_metaphone_zero_refuted",
    "C87_double_metaphone",
    "C87_phonex",
    "C87_phonex_any",
    "C87_soundex_tables",
    "C87_refined_genealogy",
    "C87_refined_separating",
    "C87_refined_soundex",
    "C87_refined_soundex_refuted",
    "C87_daitch_mokotoff",
    "C87_defaults_independent"
   ],
   "note": "Files: Props_coarser.v. Concrete instances: C87_nonvacuous."
  },
  {
   "property": "C88",
   "status": "proved",
   "theorems": [
    "C88_cologne",
    "C88_cologne_ascii",
    "C88_phonex",
    "C88_nysiis",
    "C88_nysiis_any",
    "C88_nysiis_letters",
    "C88_match_rating",
    "C88_metaphone",
    "C88_metaphone_letters",
    "C88_double_metaphone_letters",
    "C88_caverphone1_letters",
    "C88_caverphone2_letters",
    "C88_daitch_mokotoff_letters",
    "C88_daitch_mokotoff_branches"
   ],
   "note": "Files: Props_blank.v. Concrete instances: C88_nonvacuous."
  },
  {
   "property": "C89",
   "status": "proved",
   "theorems": [
    "C89_soundex",
    "C89_soundex_default",
    "C89_soundex_genealogy",
    "C89_refined",
    "C89_refined_default",
    "C89_cologne",
    "C89_match_rating",
    "C89_caverphone1",
    "C89_caverphone2",
    "C89_daitch_mokotoff",
    "C89_daitch_mokotoff_first",
    "C89_phonex",
    "C89_phonex_late",
    "C89_phonex_only",
    "C89_nysiis",
    "C89_metaphone",
    "C89_double_metaphone"
   ],
   "note": "Files: Props_exchange.v. Concrete instances: C89_nonvacuous."
  },
  {
   "property": "C90",
   "status": "proved",
   "theorems": [
    "C90_signs_ignored",
    "C90_signs_caverphone",
    "C90_signs_mra",
    "C90_signs_daitch_mokotoff",
    "C90_white_daitch_mokotoff",
    "C90_signs_cologne",
    "C90_signs_double_metaphone",
    "C90_signs_metaphone",
    "C90_soundex",
    "C90_soundex_default",
    "C90_soundex_genealogy",
    "C90_mra",
    "C90_refined",
    "C90_cologne",
    "C90_caverphone1",
    "C90_caverphone2",
    "C90_nysiis",
    "C90_phonex",
    "C90_daitch_mokotoff",
    "C90_metaphone",
    "C90_double_metaphone"
   ],
   "note": "Files: Props_leave_out.v. Concrete instances: C90_nonvacuous."
  },
  {
   "property": "C91",
   "status": "proved",
   "theorems": [
    "C91_capitals",
    "C91_small",
    "C91_mra",
    "C91_mra_single_refuted",
    "C91_capitals_of_letters",
    "C91_small_of_letters",
    "C91_small_readers",
    "C91_small_readers_capitals",
    "C91_daitch_mokotoff",
    "C91_exceptions"
   ],
   "note": "Files: Props_case.v. Concrete instances: C91_nonvacuous."
  },
  {
   "property": "C92",
   "status": "proved",
   "theorems": [
    "C92_cologne",
    "C92_refined",
    "C92_refined_default",
    "C92_soundex",
    "C92_soundex_default",
    "C92_soundex_genealogy",
    "C92_match_rating",
    "C92_daitch_mokotoff",
    "C92_phonex",
    "C92_phonex_only",
    "C92_nysiis",
    "C92_metaphone",
    "C92_metaphone_only",
    "C92_double_metaphone",
    "C92_caverphone1",
    "C92_caverphone2"
   ],
   "note": "Files: Props_swap.v. Concrete instances: C92_nonvacuous."
  },
  {
   "property": "C93",
   "status": "proved",
   "theorems": [
    "C93_refined",
    "C93_cologne",
    "C93_metaphone",
    "C93_refined_reached",
    "C93_cologne_reached",
    "C93_metaphone_reached",
    "C93_double_metaphone_W",
    "C93_double_metaphone_refuted"
   ],
   "note": "Files: Props_typo.v, Props_typo_dm.v. Concrete instances: C93_nonvacuous, C93_double_metaphone_nonvacuous."
  },
  {
   "property": "C94",
   "status": "proved",
   "theorems": [
    "C94_metaphone",
    "C94_metaphone_reached",
    "C94_cologne",
    "C94_cologne_reached",
    "C94_refined",
    "C94_refined_reached",
    "C94_nysiis",
    "C94_nysiis_reached",
    "C94_double_metaphone",
    "C94_double_metaphone_reached"
   ],
   "note": "Files: Props_size.v, Props_size_dm.v. Concrete instances: C94_nonvacuous, C94_double_metaphone_nonvacuous."
  },
  {
   "property": "C95",
   "status": "proved",
   "theorems": [
    "C95_soundex",
    "C95_refined",
    "C95_cologne",
    "C95_daitch_mokotoff",
    "C95_phonex",
    "C95_match_rating",
    "C95_match_rating_short",
    "C95_match_rating_settles",
    "C95_match_rating_five",
    "C95_metaphone_refuted",
    "C95_double_metaphone_refuted",
    "C95_caverphone_refuted",
    "C95_caverphone1_settles",
    "C95_caverphone1_four",
    "C95_caverphone2_settles",
    "C95_caverphone2_three",
    "C95_double_metaphone_never_enough",
    "C95_double_metaphone_alternate_never_settles",
    "C95_double_metaphone_primary_settles",
    "C95_metaphone_settles",
    "C95_metaphone_five",
    "C95_nysiis_refuted",
    "C95_nysiis",
    "C95_nysiis_settles"
   ],
   "note": "Files: Props_again.v, Props_again_caverphone.v, Props_again_caverphone2.v, Props_again_dm.v, Props_again_dm2.v, Props_again_metaphone.v, Props_again_nysiis.v. Concrete instances: C95_nonvacuous, C95_caverphone_nonvacuous, C95_double_metaphone_nonvacuous, C95_nysiis_nonvacuous."
  },
  {
   "property": "C96",
   "status": "proved",
   "theorems": [
    "C96_daitch_mokotoff_rules",
    "C96_daitch_mokotoff",
    "C96_letters_only",
    "C96_caverphone",
    "C96_match_rating",
    "C96_double_metaphone",
    "C96_beider_morse",
    "C96_beider_morse_unprefixed"
   ],
   "note": "Files: Props_white.v. Concrete instances: C96_nonvacuous."
  },
  {
   "property": "C97",
   "status": "proved",
   "theorems": [
    "C97_refined",
    "C97_others_front",
    "C97_others_end",
    "C97_daitch_mokotoff"
   ],
   "note": "Files: Props_inside.v. Concrete instances: C97_nonvacuous."
  },
  {
   "property": "C98",
   "status": "proved",
   "theorems": [
    "C98_match_rating",
    "C98_match_rating_front",
    "C98_match_rating_y",
    "C98_daitch_mokotoff",
    "C98_daitch_mokotoff_first",
    "C98_cologne",
    "C98_soundex_sharp",
    "C98_refined_sharp",
    "C98_soundex",
    "C98_refined",
    "C98_nysiis",
    "C98_others"
   ],
   "note": "Files: Props_accents.v. Concrete instances: C98_nonvacuous."
  },
  {
   "property": "C99",
   "status": "proved",
   "theorems": [
    "C99_refined_renamed",
    "C99_soundex_renamed",
    "C99_soundex",
    "C99_refined",
    "C99_refined_difference"
   ],
   "note": "Files: Props_renaming.v. Concrete instances: C99_nonvacuous."
  }
 ]
}