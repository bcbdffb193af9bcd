-Q theories Verif
theories/Base.v
theories/UnicodeM.v
theories/Lib.v
theories/Soundex.v
theories/Helper.v
theories/Cologne.v
theories/Caverphone.v
theories/Nysiis.v
theories/Phonex.v
theories/Metaphone.v
theories/MatchRating.v
theories/DoubleMetaphone.v
theories/RulesParser.v
theories/DaitchMokotoff.v
theories/DmRules.v
theories/BmLanguages.v
theories/BmRegex.v
theories/BmRule.v
theories/Api.v
theories/BmEngine.v
theories/MiniRegex.v
theories/BmCcRules.v
theories/BmEmbedded.v
theories/Conformance_encoders.v
theories/Conformance_unicode.v
theories/Conformance_dm.v
theories/Conformance_bm.v
theories/BaseLemmas.v
theories/Spec_common.v
theories/Lib_proofs.v
theories/Spec_soundex.v
theories/Soundex_proofs.v
theories/Props_lib.v
theories/Props_soundex.v
theories/Spec_cologne.v
theories/Cologne_proofs.v
theories/Props_cologne.v
theories/UnicodeLemmas.v
theories/Caverphone_proofs.v
theories/Props_caverphone.v
theories/Nysiis_proofs.v
theories/Props_nysiis.v
theories/Phonex_proofs.v
theories/Props_phonex.v
theories/Metaphone_proofs.v
theories/Props_metaphone.v
theories/DoubleMetaphone_proofs.v
theories/Props_double_metaphone.v
theories/Spec_mra.v
theories/Mra_proofs.v
theories/Mra_compare_proofs.v
theories/Props_mra.v
theories/Props_mra_compare.v
theories/Spec_rules.v
theories/Rules_proofs.v
theories/Props_rules.v
theories/Spec_dm.v
theories/Dm_proofs.v
theories/Dm_order_proofs.v
theories/Dm_any_proofs.v
theories/Spec_dm_file.v
theories/Spec_dm_any.v
theories/Dm_build_proofs.v
theories/Props_dm.v
theories/Props_dm_any.v
theories/Spec_bm.v
theories/Bm_set_proofs.v
theories/Props_bm_languages.v
theories/Props_bm_regex.v
theories/Spec_bm_engine.v
theories/Bm_engine_proofs.v
theories/Bm_recursion_proofs.v
theories/Spec_bm_file.v
theories/Spec_bm_errors.v
theories/Bm_file_proofs.v
theories/BmDefault.v
theories/Bm_config_proofs.v
theories/UnicodeReal.v
theories/Upper_ok.v
theories/Spec_bm_name.v
theories/Bm_name_proofs.v
theories/Props_bm_engine.v
theories/Props_bm_config.v
theories/Spec_bm_all.v
theories/Bm_all_proofs.v
theories/Props_bm_all.v
theories/Props_bm_errors.v
theories/Spec_rewrite.v
theories/Rewrite_proofs.v
theories/Spec_nysiis.v
theories/Nysiis_spec_proofs.v
theories/Props_nysiis_spec.v
theories/Spec_phonex.v
theories/Phonex_spec_proofs.v
theories/Props_phonex_spec.v
theories/Spec_caverphone.v
theories/Caverphone_spec_proofs.v
theories/Props_caverphone_spec.v
theories/Spec_contextual.v
theories/Contextual_proofs.v
theories/Spec_metaphone.v
theories/Metaphone_spec_proofs.v
theories/Props_metaphone_spec.v
theories/Spec_double_metaphone.v
theories/Double_metaphone_spec_proofs.v
theories/Double_metaphone_run_proofs.v
theories/Double_metaphone_any_proofs.v
theories/Double_metaphone_local_proofs.v
theories/Metaphone_any_proofs.v
theories/Metaphone_panic_proofs.v
theories/Props_double_metaphone_spec.v
theories/Props_double_metaphone_any.v
theories/Props_double_metaphone_local.v
theories/Props_metaphone_any.v
theories/Props_api.v
theories/Bm_standard_proofs.v
theories/Bm_depth_proofs.v
theories/Props_bm_standard.v
theories/Serde.v
theories/Spec_serde.v
theories/Serde_proofs.v
theories/Props_serde.v
theories/Compare.v
theories/Props_compare.v
theories/Spec_codes.v
theories/Codes_proofs.v
theories/Window_proofs.v
theories/Codes_reading_proofs.v
theories/Codes_caverphone_proofs.v
theories/Codes_nysiis_proofs.v
theories/Codes_daitch_proofs.v
theories/Codes_alternate_proofs.v
theories/Props_dm_count.v
theories/Props_sigma.v
theories/Spec_double_metaphone_looks.v
theories/Double_metaphone_looks_proofs.v
theories/Props_dm_looks.v
theories/Spec_bm_alphabet.v
theories/Props_bm_alphabet.v
theories/Spec_bm_limit.v
theories/Props_bm_limit.v
theories/Spec_doubled.v
theories/Metaphone_doubled_proofs.v
theories/Dm_doubled_proofs.v
theories/Props_doubled.v
theories/Spec_longer.v
theories/Metaphone_longer_proofs.v
theories/Dm_longer_proofs.v
theories/Props_longer.v
theories/Props_coarser.v
theories/Spec_blank.v
theories/Blank_nysiis_proofs.v
theories/Blank_metaphone_proofs.v
theories/Blank_double_metaphone_proofs.v
theories/Blank_caverphone_proofs.v
theories/Blank_daitch_proofs.v
theories/Props_blank.v
theories/Spec_exchange.v
theories/Exchange_proofs.v
theories/Exchange_caverphone_proofs.v
theories/Exchange_dm_proofs.v
theories/Exchange_phonex_proofs.v
theories/Exchange_nysiis_proofs.v
theories/Props_exchange.v
theories/Caverphone_doubled_proofs.v
theories/Nysiis_doubled_proofs.v
theories/Props_doubled_more.v
theories/Spec_leave_out.v
theories/Props_leave_out.v
theories/Spec_case.v
theories/Case_proofs.v
theories/Props_case.v
theories/Props_streaming.v
theories/Spec_swap.v
theories/Swap_proofs.v
theories/Swap_metaphone_proofs.v
theories/Swap_caverphone_proofs.v
theories/Props_swap.v
theories/Spec_typo.v
theories/Typo_proofs.v
theories/Typo_metaphone_proofs.v
theories/Props_typo.v
theories/Props_size.v
theories/Typo_double_metaphone_proofs.v
theories/Props_typo_dm.v
theories/Props_again.v
theories/Props_again_nysiis.v
theories/Props_codes.v
theories/Props_white.v
theories/Props_size_dm.v
theories/Props_longer_nysiis.v
theories/Props_again_caverphone.v
theories/Props_again_caverphone2.v
theories/Props_again_metaphone.v
theories/Props_again_dm.v
theories/Props_again_dm2.v
theories/Props_inside.v
theories/Spec_accents.v
theories/Props_accents.v
theories/Spec_renaming.v
theories/Props_renaming.v
theories/Spec_how_many.v
theories/How_many_proofs.v
theories/Props_how_many.v
